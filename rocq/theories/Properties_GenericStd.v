(** C58 for the values of C72: when their bytes are those of encoding/json. *)
From Coq Require Import Permutation Sorted.
From Verif Require Import Base Utf8 JsonSpec OptionsModel EscapeModel EscapeProof NumberProof JsonParse IntModel IntProof TypesModel TypesFacts FloatModel FloatProof FloatSpec FloatShort Base64Proof LeafModel LeafProof
  MemModel FieldsModel InstrModel ExecModel ValueModel ExecProof HostFacts VencFacts MarshalThm DocSpec EntriesFacts DocLeaf PartFacts DocProof SafeProof ApiFacts PartsThm ShapeThm CallFacts ShuffleThm OrderThm MethodsThm
  StrictParse ExampleHost ExampleConst ExampleRead Properties_Options Properties_Strings Properties_Numbers Properties_Floats Properties_FloatText Properties_Members Properties_Maps Properties_Order Properties_Api Properties_Lossless
  Properties_Failures Properties_Std Properties_Generic.

(** A map somewhere in the value. *)
Inductive within : val -> list (val * val) -> Prop :=
| w_here es : within (VMap es) es
| w_iface t v es : within v es -> within (VIface t v) es
| w_elem vs v es : In v vs -> within v es -> within (VSlice vs) es
| w_entry es0 k v es : In (k, v) es0 -> within v es -> within (VMap es0) es.

(** A key before another stays before it when both are escaped. *)
Definition in_order (html : bool) (es : list (val * val)) : Prop :=
  forall s x s' x' y y', In (VStr s, x) es -> In (VStr s', x') es -> escape_text html s y -> escape_text html s' y' -> lexlt s s' -> lexlt y y'.

(** ** Texts joined by commas *)
Lemma app_same_length {A} (a b c d : list A) : a ++ c = b ++ d -> length a = length b -> a = b /\ c = d.
Proof.
  revert b. induction a as [|x a IH]; intros [|y b] E L; try discriminate; [auto|]. cbn [app] in E. injection E as -> E. injection L as L. destruct (IH b E L) as [-> ->]. auto.
Qed.
Definition ctail (bs : list bytes) : bytes := match bs with [] => [] | _ => 44 :: commas bs end.
Lemma commas_cons b bs : commas (b :: bs) = b ++ ctail bs.
Proof. destruct bs; [cbn; rewrite app_nil_r; reflexivity | reflexivity]. Qed.
Lemma commas_same xs ys : Forall2 (fun x y : bytes => length x = length y) xs ys -> commas xs = commas ys -> xs = ys.
Proof.
  induction 1 as [|x y xs ys L F IH]; [reflexivity|]. rewrite !commas_cons. intros E. destruct (app_same_length _ _ _ _ E L) as [-> T]. f_equal. destruct F as [|x' y' xs ys]; [reflexivity|]. apply IH. injection T as T. exact T.
Qed.
Definition total (bs : list bytes) : nat := fold_right (fun b n => (length b + n)%nat) 0%nat bs.
Lemma commas_length bs : length (commas bs) = (total bs + (length bs - 1))%nat.
Proof.
  induction bs as [|b bs IH]; [reflexivity|]. rewrite commas_cons, app_length. cbn [total fold_right length]. fold (total bs). destruct bs as [|b' bs]; [cbn; lia|]. change (length (ctail (b' :: bs))) with (S (length (commas (b' :: bs)))). rewrite IH. cbn [length]. lia.
Qed.
Lemma total_perm bs bs' : Permutation bs bs' -> total bs = total bs' /\ length bs = length bs'.
Proof.
  induction 1 as [|x a b P [I1 I2]|x y a|a b c P1 [I1 I2] P2 [I3 I4]]; unfold total in *; cbn [fold_right length].
  - split; reflexivity.
  - rewrite I1, I2. split; reflexivity.
  - split; [rewrite !Nat.add_assoc, (Nat.add_comm (length y)); reflexivity | reflexivity].
  - rewrite I1, I2. split; assumption.
Qed.
Lemma total_same xs ys : Forall2 (fun x y : bytes => length x = length y) xs ys -> total xs = total ys /\ length xs = length ys.
Proof. induction 1 as [|x y xs ys L F IH]; [split; reflexivity|]. destruct IH as [I1 I2]. unfold total in *. cbn [fold_right length]. split; [rewrite I1, L; reflexivity | rewrite I2; reflexivity]. Qed.

Lemma quoted_shorter us us' y y' r r' : jchars false us y -> jchars false us' y' -> (length y <= length y')%nat -> y ++ 34 :: r = y' ++ 34 :: r' -> us = us' /\ y = y' /\ r = r'.
Proof.
  intros J J' L E. assert (X : exists r0, y' ++ [34] = y ++ 34 :: r0 /\ r = r0 ++ r').
  { clear J J'. revert y' L E. induction y as [|c y IH]; intros y' L E.
    - destruct y' as [|c' y']; cbn [app] in E; [injection E as E2; exists []; subst; auto|]. injection E as E1 E2. exists (y' ++ [34]). subst. cbn [app]. rewrite <- app_assoc. auto.
    - destruct y' as [|c' y']; [cbn in L; lia|]. cbn [app] in E. injection E as -> E. destruct (IH y' ltac:(cbn in L; lia) E) as (r0 & E1 & E2). exists r0. cbn [app]. rewrite E1. auto. }
  destruct X as (r0 & E1 & ->). assert (B := jchars_bytes _ _ _ J). assert (B' := jchars_bytes _ _ _ J').
  assert (B0 : bytes_ok (y ++ 34 :: r0)) by (rewrite <- E1; apply bytes_ok_app; split; [exact B' | repeat constructor; unfold is_byte; lia]).
  apply bytes_ok_app in B0. destruct B0 as [_ B0]. apply bytes_ok_cons in B0.
  assert (P := pstr_complete false us y J B (S (length y + length y')) r0 (proj2 B0) ltac:(lia)). assert (P' := pstr_complete false us' y' J' B' (S (length y + length y')) [] ltac:(constructor) ltac:(lia)).
  rewrite <- E1, P' in P. injection P as -> <-. split; [reflexivity|]. split; [symmetry; apply (app_inv_tail [34]); exact E1 | reflexivity].
Qed.
Lemma quoted_prefix us us' y y' r r' : jchars false us y -> jchars false us' y' -> y ++ 34 :: r = y' ++ 34 :: r' -> us = us' /\ y = y' /\ r = r'.
Proof.
  intros J J' E. destruct (Nat.le_ge_cases (length y) (length y')) as [L|L]; [eapply quoted_shorter; eassumption|]. destruct (quoted_shorter us' us y' y r' r J' J L (eq_sym E)) as (-> & -> & ->). auto.
Qed.

(** ** Sorted lists *)
Lemma sorted_along {A B} (P : A -> B -> Prop) (R : B -> B -> Prop) (R' : A -> A -> Prop) xs ys : (forall x y x' y', P x y -> P x' y' -> R y y' -> R' x x') -> Forall2 P xs ys -> StronglySorted R ys -> StronglySorted R' xs.
Proof.
  intros Hr F. induction F as [|x y xs ys Px F IH]; intros S; inversion S as [|? ? S1 S2]; subst; constructor; [apply IH, S1|].
  clear - Hr Px F S2. induction F as [|x' y' xs ys Px' F IH]; inversion S2; subst; constructor; [eapply Hr; eassumption | auto].
Qed.
Lemma sorted_two {A} (R : A -> A -> Prop) xs a b : StronglySorted R xs -> In a xs -> In b xs -> a = b \/ R a b \/ R b a.
Proof.
  induction 1 as [|x xs S IH F]; [contradiction|]. rewrite Forall_forall in F. intros [-> |Ia] [-> |Ib]; auto.
Qed.

Lemma sorted_both {A} (R R' : A -> A -> Prop) xs : StronglySorted R xs -> StronglySorted R' xs -> StronglySorted (fun a b => R a b /\ R' a b) xs.
Proof.
  induction 1 as [|x xs S IH F]; intros S'; inversion S' as [|? ? S1 F1]; subst; constructor; [auto|]. rewrite Forall_forall in *. auto.
Qed.

Section Std.
  Variable H : host.
  Variable vcall : mkind -> typ -> val -> option Z -> bytes + Z.
  Hypothesis SH : shortest_ok (h_shortest H).
  Hypothesis SO : sort_ok H.
  Hypothesis NM : no_methods H.
  Variable o : encOpts.
  Variable html : bool.
  Hypothesis STD : std_opts html o.
  Notation E := (h_env H).
  Notation std := (std H vcall html).
  Notation bytes_of := (bytes_of H vcall o).
  Notation entry_bytes := (entry_bytes H vcall o TString any_t).

  Lemma gen_esc : esc_on o.
  Proof. split; apply (std_flags html o _ STD); cbn; tauto. Qed.
  Lemma gen_no_marshaler t v a : generic t v -> no_marshaler H t a.
  Proof. intros G. apply plain_no_marshaler. exact (generic_bare H NM t v G a). Qed.

  Ltac inv_std G S := inversion S; subst; try discriminate;
    try (exfalso; match goal with M : marshaler _ _ _ _ |- _ => exact (no_marshaler_not _ _ _ _ (gen_no_marshaler _ _ _ G) M) end);
    repeat match goal with
    | X : under _ list_t = TSlice ?e |- _ => change (TSlice any_t = TSlice e) in X; injection X as <-
    | X : under _ dict_t = TMap ?k ?e |- _ => change (TMap TString any_t = TMap k e) in X; injection X as <- <-
    end; try discriminate.

  (** What the text of encoding/json is made of. *)
  Lemma std_shape t v a x : generic t v -> std t a false v x ->
    match v with
    | VNil => x = lit "null"
    | VIface td v => std td false false v x
    | VSlice vs => exists xs, std_elems H vcall html any_t true vs xs /\ x = array_of xs
    | VMap es => exists es' ks ms, Permutation es es' /\ std_entries H vcall html TString any_t es' ks ms /\ StronglySorted lexlt ks /\ x = object_of ms
    | _ => True
    end.
  Proof.
    intros G S. destruct G as [|t v Nt G|b|f F|s rs U|vs Gv|es N Hk Gv]; try exact I; [| |assert (G := g_list vs Gv)|assert (G := g_dict es N Hk Gv)].
    - inv_std g_nil S. reflexivity.
    - inv_std (g_some t v Nt G) S. assumption.
    - inv_std G S. eauto.
    - inv_std G S. eauto 10.
  Qed.

  (** What the code writes is made of. *)
  Lemma bytes_shape t v ca y : generic t v -> bytes_of (t, ca, false, v) y ->
    match v with
    | VNil => y = lit "null"
    | VIface td v => bytes_of (td, false, false, v) y
    | VSlice vs => exists bs, Forall2 (fun v b => bytes_of (any_t, true, false, v) b) vs bs /\ y = array_of bs
    | VMap es => exists es' kvs, Permutation es es' /\ Forall2 entry_bytes es' kvs /\ StronglySorted (fun a b => key_le (sort_key (fst a)) (sort_key (fst b))) kvs /\ y = object_of (map member_text kvs)
    | _ => True
    end.
  Proof.
    intros G B. assert (P := generic_bare H NM t v G ca). destruct G as [|t v Nt G|b|f F|s rs U|vs Gv|es N Hk Gv]; try exact I.
    - destruct P as [P1 P2]. destruct B as [n Hn]. destruct n as [|n]; [discriminate Hn|]. cbn [venc] in Hn. rewrite P1, P2 in Hn. unfold vkind in Hn. cbn [under any_t] in Hn. injection Hn as <-. reflexivity.
    - assert (X := iface_bytes H vcall o any_t ca false None t v y P eq_refl B). rewrite (generic_ptr H t v G) in X. exact X.
    - destruct (slice_bytes H vcall o list_t ca false any_t vs y P eq_refl eq_refl B) as (bs & F & ->). exists bs. split; [exact F | apply array_join].
    - destruct (map_bytes H vcall o SO dict_t ca false TString any_t es y P eq_refl eq_refl B) as (kvs & F & kvs' & Pm & -> & Sr). rewrite (std_flags html o unsortedMap STD ltac:(cbn; tauto)) in Sr.
      assert (F' : Forall2 (fun kv e => entry_bytes e kv) kvs es) by (apply Forall2_flip; exact F). destruct (Forall2_perm _ _ _ Pm _ F') as (es' & F2 & Pe).
      exists es', kvs'. split; [exact Pe|]. split; [apply Forall2_flip in F2; exact F2|]. split; [exact Sr|]. rewrite members_commas. reflexivity.
  Qed.

  Lemma leaf_same t v a ca x y : generic t v -> match v with VBool _ | VFloat _ | VStr _ => True | _ => False end -> std t a false v x -> bytes_of (t, ca, false, v) y -> x = y.
  Proof.
    intros G L S [n B]. destruct (generic_bare H NM t v G ca) as [P1 P2]. destruct n as [|n]; [discriminate B|]. cbn [venc] in B. rewrite P1, P2 in B. unfold vkind in B.
    destruct G as [|t v Nt G|b|f F|s rs U|vs Gv|es N Hk Gv]; try contradiction.
    - cbn [under] in B. injection B as <-. inv_std (g_bool b) S; reflexivity.
    - cbn [under] in B. inv_std (g_float f F) S. match goal with U : under _ _ = TFloat ?b, X : float_spelled _ ?b _ _ |- _ => injection (U : TFloat true = TFloat b) as <-; apply (spelled_append _ _ _ _ SH) in X; rename X into Xf end. rewrite Xf in B. injection B as <-. reflexivity.
    - cbn [under] in B. injection B as <-. inv_std (g_str s rs U) S. eapply string_json_det; [eassumption|]. apply std_string; [exact STD | eapply utf8_string_bytes; exact U].
  Qed.

  (** ** Entries *)
  Definition utf8_keys (es : list (val * val)) : Prop := forall k v, In (k, v) es -> exists s rs, k = VStr s /\ utf8_string s rs.
  Definition s_entry (e : val * val) (b : bytes) : Prop := exists s rs w x, e = (VStr s, w) /\ utf8_string s rs /\ std any_t false false w x /\ b = lit """" ++ escaped o s ++ lit """" ++ 58 :: x.
  Definition b_entry (e : val * val) (b : bytes) : Prop := exists s rs w x, e = (VStr s, w) /\ utf8_string s rs /\ bytes_of (any_t, false, false, w) x /\ b = lit """" ++ escaped o s ++ lit """" ++ 58 :: x.

  Lemma std_entries_each es : utf8_keys es -> forall ks ms, std_entries H vcall html TString any_t es ks ms -> Forall2 s_entry es ms /\ Forall2 (fun e k => fst e = VStr k) es ks.
  Proof.
    induction es as [|[k v] es IH]; intros K ks ms S; inversion S as [|? ? ? s n ? x ? ks1 ms1 Ks J X R]; subst; [split; constructor|]. destruct (IH (fun k v Hi => K k v (or_intror Hi)) _ _ R) as [F M].
    destruct (K k v (or_introl eq_refl)) as (s0 & rs & -> & U). assert (s0 = s) as <-.
    { inversion Ks; subst; [reflexivity|]. match goal with T : text_key _ _ |- _ => destruct T as (T & _); exfalso; apply T; reflexivity end. }
    split; constructor; auto. assert (B := utf8_string_bytes _ _ U). exists s0, rs, v, x. split; [reflexivity|]. split; [exact U|]. split; [exact X|].
    rewrite (string_json_det _ _ _ _ J (std_string _ _ _ STD B)), (encode_string_is _ _ B), <- !app_assoc. reflexivity.
  Qed.

  Lemma bytes_entries_each es : utf8_keys es -> forall kvs, Forall2 entry_bytes es kvs -> Forall2 b_entry es (map member_text kvs) /\ Forall2 (fun e kv => exists s, fst e = VStr s /\ sort_key (fst kv) = escaped o s) es kvs.
  Proof.
    induction es as [|[k v] es IH]; intros K kvs F; inversion F as [|? [kb vb] ? kvs1 [Kb Vb] F1]; subst; [split; constructor|]. destruct (IH (fun k v Hi => K k v (or_intror Hi)) _ F1) as [F2 M]. cbn [fst snd] in *.
    destruct (K k v (or_introl eq_refl)) as (s & rs & -> & U). assert (B := utf8_string_bytes _ _ U). assert (X : kb = lit """" ++ escaped o s ++ lit """").
    { destruct Kb as [(_ & s' & Es & ->)|[(D & _)|(D & _)]]; try discriminate D. injection Es as <-. apply encode_string_is, B. }
    subst kb. split; constructor; auto; cbn [fst].
    - exists s, rs, v, vb. split; [reflexivity|]. split; [exact U|]. split; [exact Vb|]. unfold member_text. cbn [fst snd]. rewrite <- !app_assoc. reflexivity.
    - exists s. split; [reflexivity | exact (sort_key_quoted (escaped o s))].
  Qed.

  Lemma escaped_units s rs : utf8_string s rs -> jchars false (flat_map utf16 rs) (escaped o s).
  Proof. intros U. apply escaped_string_units; [eapply utf8_string_bytes; exact U | exact gen_esc | apply string_units_valid, U]. Qed.
  Lemma escaped_inj s rs s' rs' : utf8_string s rs -> utf8_string s' rs' -> escaped o s = escaped o s' -> s = s'.
  Proof. intros U U' Es. apply (C01_distinct s s' rs rs' U U'). assert (J := escaped_units _ _ U). rewrite Es in J. exact (jchars_det _ _ _ _ J (escaped_units _ _ U')). Qed.

  (** ** The two texts have the same length *)
  Lemma same_length t v : generic t v -> forall a ca x y, std t a false v x -> bytes_of (t, ca, false, v) y -> length x = length y.
  Proof.
    induction 1 as [|t v Nt G IH|b|f F|s rs U|vs Gv IH|es N Hk Gv IH]; intros a ca x y S B.
    - rewrite (std_shape _ _ _ _ g_nil S : x = _), (bytes_shape _ _ _ _ g_nil B : y = _). reflexivity.
    - exact (IH _ _ _ _ (std_shape _ _ _ _ (g_some t v Nt G) S) (bytes_shape _ _ _ _ (g_some t v Nt G) B)).
    - rewrite (leaf_same _ _ _ _ _ _ (g_bool b) I S B). reflexivity.
    - rewrite (leaf_same _ _ _ _ _ _ (g_float f F) I S B). reflexivity.
    - rewrite (leaf_same _ _ _ _ _ _ (g_str s rs U) I S B). reflexivity.
    - destruct (std_shape _ _ _ _ (g_list vs Gv) S) as (xs & Sx & ->). destruct (bytes_shape _ _ _ _ (g_list vs Gv) B) as (bs & Sb & ->).
      assert (F : Forall2 (fun x y : bytes => length x = length y) xs bs).
      { clear S B Gv. revert xs bs Sx Sb. induction vs as [|v vs IHv]; intros xs bs Sx Sb; inversion Sx; inversion Sb; subst; constructor; [eapply IH; [left; reflexivity | eassumption | eassumption]|]. apply IHv; auto. intros; eapply IH; try eassumption. right. assumption. }
      destruct (total_same _ _ F) as [T L]. unfold array_of. rewrite !app_length, !commas_length, T, L. reflexivity.
    - destruct (std_shape _ _ _ _ (g_dict es N Hk Gv) S) as (es1 & ks & ms & P1 & S1 & _ & ->). destruct (bytes_shape _ _ _ _ (g_dict es N Hk Gv) B) as (es2 & kvs & P2 & B2 & _ & ->).
      assert (K1 : utf8_keys es1) by (intros k v Hi; apply (Hk k v); eapply Permutation_in; [apply Permutation_sym; exact P1 | exact Hi]). assert (K2 : utf8_keys es2) by (intros k v Hi; apply (Hk k v); eapply Permutation_in; [apply Permutation_sym; exact P2 | exact Hi]).
      destruct (std_entries_each es1 K1 _ _ S1) as [F1 _]. destruct (bytes_entries_each es2 K2 _ B2) as [F2 _].
      destruct (Forall2_perm _ _ _ (Permutation_trans (Permutation_sym P1) P2) _ F1) as (ms' & F1' & Pm).
      assert (Hv : forall k v, In (k, v) es2 -> forall x y, std any_t false false v x -> bytes_of (any_t, false, false, v) y -> length x = length y) by (intros k v Hi x' y'; apply (IH k v); eapply Permutation_in; [apply Permutation_sym; exact P2 | exact Hi]).
      assert (F : Forall2 (fun x y : bytes => length x = length y) ms' (map member_text kvs)).
      { clear - F1' F2 Hv. revert F2 Hv. generalize (map member_text kvs) as bs. intros bs F2 Hv. revert bs F2. induction F1' as [|e m es ms E1 F1 IH]; intros bs F2; inversion F2 as [|? b ? bs' E2 F2']; subst; constructor; [|apply IH; auto; intros; eapply Hv; try eassumption; right; eassumption].
        destruct E1 as (s & rs & w & x & -> & _ & X & ->). destruct E2 as (s' & rs' & w' & x' & Ee & _ & X' & ->). injection Ee as <- <-. rewrite !app_length. cbn [length]. rewrite (Hv _ _ (or_introl eq_refl) _ _ X X'). reflexivity. }
      destruct (total_same _ _ F) as [T L]. destruct (total_perm _ _ Pm) as [T' L']. unfold object_of. rewrite !app_length, !commas_length, T', L', T, L. reflexivity.
  Qed.

  Lemma entry_of_key (es : list (val * val)) k v v' : NoDup (map fst es) -> In (k, v) es -> In (k, v') es -> v = v'.
  Proof.
    induction es as [|[k0 v0] es IH]; intros N A B; [contradiction|]. cbn [map fst] in N. inversion N as [|? ? N1 N2]; subst.
    destruct A as [A|A], B as [B|B]; [congruence| | |auto]; [injection A as -> -> ; destruct (N1 (List.in_map fst _ _ B)) | injection B as -> -> ; destruct (N1 (List.in_map fst _ _ A))].
  Qed.
  (** The same members in the same text are in the same order. *)
  Lemma same_entries es : NoDup (map fst es) -> (forall k v, In (k, v) es -> generic any_t v) -> forall es1 ms, Forall2 s_entry es1 ms -> forall es2 bs, Forall2 b_entry es2 bs -> length es1 = length es2 -> incl es1 es -> incl es2 es ->
    commas ms = commas bs -> es1 = es2 /\ ms = bs.
  Proof.
    intros N Gv es1 ms F1. induction F1 as [|e m es1 ms E1 F1 IH]; intros es2 bs F2 L I1 I2 C; destruct F2 as [|e' b es2 bs E2 F2]; try discriminate L; [auto|].
    rewrite !commas_cons in C. destruct E1 as (s & rs & w & x & -> & U & X & ->). destruct E2 as (s' & rs' & w' & x' & -> & U' & X' & ->).
    rewrite <- !app_assoc in C. cbn [lit app map] in C. injection C as C.
    destruct (quoted_prefix _ _ _ _ _ _ (escaped_units s rs U) (escaped_units s' rs' U') C) as (Eu & Ey & Er). assert (s = s') as <- by (eapply C01_distinct; eassumption).
    assert (w = w') as <- by (eapply (entry_of_key es); [exact N | apply I1; left; reflexivity | apply I2; left; reflexivity]).
    injection Er as Er. assert (Lx : length x = length x') by (eapply same_length; [eapply Gv; apply I1; left; reflexivity | exact X | exact X']).
    destruct (app_same_length _ _ _ _ Er Lx) as [<- T]. assert (Q : commas ms = commas bs).
    { destruct F1 as [|? ? ? ? ? ?], F2 as [|? ? ? ? ? ?]; try discriminate L; [reflexivity | injection T as T; exact T]. }
    destruct (IH es2 bs F2 ltac:(cbn [length] in L; lia) (fun e Hi => I1 e (or_intror Hi)) (fun e Hi => I2 e (or_intror Hi)) Q) as [-> ->]. auto.
  Qed.

  Lemma dict_same es : NoDup (map fst es) -> utf8_keys es -> (forall k v, In (k, v) es -> generic any_t v) -> forall a ca x, std dict_t a false (VMap es) x -> bytes_of (dict_t, ca, false, VMap es) x ->
    (forall k v, In (k, v) es -> exists y, std any_t false false v y /\ bytes_of (any_t, false, false, v) y) /\ in_order html es.
  Proof.
    intros N Hk Gv a ca x S B. destruct (std_shape _ _ _ _ (g_dict es N Hk Gv) S) as (es1 & ks & ms & P1 & S1 & So1 & ->). destruct (bytes_shape _ _ _ _ (g_dict es N Hk Gv) B) as (es2 & kvs & P2 & B2 & So2 & Eo).
    assert (I1 : incl es1 es) by (intros e Hi; eapply Permutation_in; [apply Permutation_sym; exact P1 | exact Hi]). assert (I2 : incl es2 es) by (intros e Hi; eapply Permutation_in; [apply Permutation_sym; exact P2 | exact Hi]).
    destruct (std_entries_each es1 (fun k v Hi => Hk k v (I1 _ Hi)) _ _ S1) as [F1 Fk]. destruct (bytes_entries_each es2 (fun k v Hi => Hk k v (I2 _ Hi)) _ B2) as [F2 Fs].
    unfold object_of in Eo. apply app_inv_head, app_inv_tail in Eo.
    assert (L : length es1 = length es2) by (rewrite <- (Permutation_length P1); apply Permutation_length; exact P2).
    destruct (same_entries es N Gv _ _ F1 _ _ F2 L I1 I2 Eo) as [<- Em]. rewrite Em in F1. clear S B Em Eo S1 B2. split.
    - intros k v Hi. apply (Permutation_in _ P1) in Hi. clear - Hi F1 F2. revert F1 F2. generalize (map member_text kvs) as bs. induction es1 as [|e es1 IH]; intros bs F1 F2; [contradiction|].
      inversion F1 as [|? b ? bs' E1 F1']; subst. inversion F2 as [|? ? ? ? E2 F2']; subst. destruct Hi as [-> |Hi]; [|eapply IH; eassumption].
      destruct E1 as (s & rs & w & y & Ee & _ & X & Eb). destruct E2 as (s' & rs' & w' & y' & Ee' & _ & X' & ->). injection Ee as -> ->. injection Ee' as <- <-. do 2 apply app_inv_head in Eb. injection Eb as <-. eauto.
    - assert (T1 : StronglySorted (fun e e' => forall s s', fst e = VStr s -> fst e' = VStr s' -> lexlt s s') es1).
      { eapply sorted_along; [|exact Fk | exact So1]. cbn beta. intros e k e' k' -> -> Lk s s' [= <-] [= <-]. exact Lk. }
      assert (T2 : StronglySorted (fun e e' => forall s s', fst e = VStr s -> fst e' = VStr s' -> lexle (escaped o s) (escaped o s')) es1).
      { eapply sorted_along; [|exact Fs | exact So2]. cbn beta. intros e k e' k' (s1 & -> & Q1) (s2 & -> & Q2) Lk s s' [= <-] [= <-]. rewrite <- Q1, <- Q2. apply key_le_lex, Lk. }
      intros s w s' w' y y' Hi Hi' Y Y' Ls. destruct (Hk _ _ Hi) as (s0 & rs & [= <-] & U). destruct (Hk _ _ Hi') as (s0 & rs' & [= <-] & U').
      rewrite (escape_text_det _ _ _ _ Y (std_escaped _ _ _ STD (utf8_string_bytes _ _ U))), (escape_text_det _ _ _ _ Y' (std_escaped _ _ _ STD (utf8_string_bytes _ _ U'))).
      apply (Permutation_in _ P1) in Hi, Hi'. split; [|intros Es; apply (proj2 Ls); eapply escaped_inj; eassumption].
      destruct (sorted_two _ _ _ _ (sorted_both _ _ _ T1 T2) Hi Hi') as [Q|[[_ Q]|[Q _]]]; [injection Q as -> ->; destruct Ls as [_ Ls]; contradiction | apply Q; reflexivity|].
      specialize (Q _ _ eq_refl eq_refl). exfalso. apply (proj2 Ls). apply lexle_antisym; [apply Ls | apply Q].
  Qed.

  Lemma same_ordered t v : generic t v -> forall a ca x, std t a false v x -> bytes_of (t, ca, false, v) x -> forall es, within v es -> in_order html es.
  Proof.
    induction 1 as [|t v Nt G IH|b|f F|s rs U|vs Gv IH|es N Hk Gv IH]; intros a ca x S B es0 W; inversion W; subst.
    - eapply IH; [exact (std_shape _ _ _ _ (g_some t v Nt G) S) | exact (bytes_shape _ _ _ _ (g_some t v Nt G) B) | assumption].
    - destruct (std_shape _ _ _ _ (g_list vs Gv) S) as (xs & Sx & ->). destruct (bytes_shape _ _ _ _ (g_list vs Gv) B) as (bs & Sb & Eb).
      assert (F : Forall2 (fun x y : bytes => length x = length y) xs bs).
      { clear - Sx Sb Gv SH SO NM STD. revert xs bs Sx Sb. induction vs as [|v vs IHv]; intros xs bs Sx Sb; inversion Sx; inversion Sb; subst; constructor; [eapply same_length; [apply Gv; left; reflexivity | eassumption | eassumption]|]. apply IHv; auto. intros; apply Gv. right. assumption. }
      unfold array_of in Eb. apply app_inv_head, app_inv_tail in Eb. apply (commas_same _ _ F) in Eb. subst bs. clear F S B W. match goal with Hi : In v vs |- _ => rename Hi into Iv end.
      assert (X : exists x, std any_t true false v x /\ bytes_of (any_t, true, false, v) x).
      { clear - Sx Sb Iv. revert xs Sx Sb. induction vs as [|v' vs IHv]; intros xs Sx Sb; [contradiction|]. inversion Sx; inversion Sb; subst. match goal with Q : _ :: _ = _ :: _ |- _ => injection Q as -> -> end. destruct Iv as [-> |Hi]; [eauto | eapply IHv; eassumption]. }
      destruct X as (x & X1 & X2). eapply IH; eassumption.
    - exact (proj2 (dict_same _ N Hk Gv _ _ _ S B)).
    - destruct (dict_same es N Hk Gv _ _ _ S B) as (V & _). match goal with Hi : In (?k, ?v) es |- _ => destruct (V k v Hi) as (y & Y1 & Y2) end. eapply IH; eassumption.
  Qed.

  (** ** Ordinary values *)
  Lemma generic_child_within t ca v y : generic t v -> child H o (t, ca, false, v) y -> exists t' ca' v', y = (t', ca', false, v') /\ generic t' v' /\ forall es, within v' es -> within v es.
  Proof.
    intros G C. destruct (generic_child H o NM _ _ _ _ G C) as (t' & ca' & v' & -> & G'). exists t', ca', v'. split; [reflexivity|]. split; [exact G'|]. intros es W. clear G'.
    remember (t, ca, false, v) as x eqn:Ex. remember (t', ca', false, v') as z eqn:Ez. destruct C; injection Ex; intros; subst; injection Ez; intros; subst; inversion G; subst; try discriminate; try (econstructor; eassumption).
    match goal with X : under _ dict_t = TMap ?kt ?et |- _ => change (dict_t = TMap kt et) in X; injection X as <- <- end. match goal with X : isString _ TString = false |- _ => discriminate X end.
  Qed.
  Lemma generic_part_within t ca v y : generic t v -> part H o (t, ca, false, v) y -> exists t' ca' v', y = (t', ca', false, v') /\ generic t' v' /\ forall es, within v' es -> within v es.
  Proof.
    intros K Hy. remember (t, ca, false, v) as x eqn:Ex. revert t ca v K Ex. induction Hy as [x|x y z C _ IH]; intros t ca v K ->; [eauto 10|].
    destruct (generic_child_within _ _ _ _ K C) as (t1 & ca1 & v1 & -> & K1 & W1). destruct (IH _ _ _ K1 eq_refl) as (t2 & ca2 & v2 & -> & K2 & W2). eauto 10.
  Qed.
  Lemma string_key k s : key_string H vcall TString k s -> k = VStr s.
  Proof.
    intros K. inversion K as [? U|? ? ? ? T|T|? ? T|? ? ? T]; subst; [reflexivity|..]; exfalso; [destruct T as (T & _); apply T; reflexivity | destruct T as (T & _); apply T; reflexivity | destruct T as (_ & ? & T); discriminate T | destruct T as (T & _); discriminate T].
  Qed.
  Lemma generic_ordinary t ca v : generic t v -> (forall es, within v es -> in_order html es) -> all_ordinary H vcall html o (t, ca, false, v).
  Proof.
    intros G0 W0 y Hy. destruct (generic_part_within _ _ _ _ G0 Hy) as (t' & ca' & v' & -> & G & Sub). assert (W : forall es, within v' es -> in_order html es) by (intros es Hw; apply W0, Sub, Hw). clear G0 W0 Hy Sub t ca v.
    assert (B := generic_bare H NM t' v' G). split; [intros X; destruct (B true); congruence|]. split; [intros _; split; apply bare_available; exact B|].
    split; [intros M; exfalso; destruct M as (_ & M & _); exact (bare_available _ _ _ _ B M)|]. intros _. destruct G as [|t v Nt G|b|f F|s rs U|vs Gv|es N Hk Gv]; cbn [kind_ordinary under any_t list_t dict_t]; try exact I; [discriminate | discriminate|].
    right. split; [left; reflexivity|]. split; [intros k x Hi ->; destruct (Hk _ _ Hi) as (? & ? & X & _); discriminate X|]. split; [exact N|]. split.
    - intros k x k' x' s _ _ K K'. rewrite (string_key _ _ K), (string_key _ _ K'). reflexivity.
    - intros k x k' x' s s' y y' Hi Hi' K K'. rewrite (string_key _ _ K) in Hi. rewrite (string_key _ _ K') in Hi'. apply (W es (w_here es) s x s' x' y y' Hi Hi').
  Qed.
End Std.

(** For generic values the call returns the bytes of encoding/json exactly when
    escaping keeps the order of the keys of every map. *)
Theorem C58_generic H vcall m t w v opts o html out : host_ok H vcall -> shortest_ok (h_shortest H) -> sort_ok H -> no_methods H -> std_opts html o ->
  generic t v -> holds H m t w v -> call_opts opts = Some o -> marshal_returns H m (Some (t, w)) opts (MOk out) ->
  (std H vcall html t false false v out <-> forall es, within v es -> in_order html es).
Proof.
  intros OK SH SO NM So G Hh Ho R. assert (C := generic_call H o NM m t w v opts G Hh Ho). split.
  - intros S. eapply (same_ordered H vcall SH SO NM o html So); [exact G | exact S | eapply call_bytes; eassumption].
  - intros W. apply (C58_text_partial H vcall m t w v opts o html out OK SH SO So C); [|exact R]. apply (generic_ordinary H vcall NM); assumption.
Qed.

(** ** The text of encoding/json *)
Lemma commas_array js bs : Forall2 cjson js bs -> cjson (JArr js) (array_of bs).
Proof.
  intros F. assert (X : bs = [] \/ jelems no_ws false js (commas bs)).
  { induction F as [|j b js bs J F IH]; [left; reflexivity|]. right. destruct IH as [-> |IH].
    - inversion F; subst. assert (X := je_one no_ws false [] j b [] eq_refl J eq_refl). cbn [app] in X. rewrite app_nil_r in X. exact X.
    - destruct F as [|j' b' js bs J' F]; [inversion IH|]. exact (je_cons no_ws false [] j b [] _ _ eq_refl J eq_refl IH). }
  destruct X as [-> |X]; [inversion F; subst; exact (j_arr0 no_ws false [] eq_refl) | exact (j_arr no_ws false js (commas bs) X)].
Qed.
Definition member_json (km : list cu * jval) (m : bytes) : Prop := exists y x, jchars false (fst km) y /\ cjson (snd km) x /\ m = lit """" ++ y ++ lit """" ++ 58 :: x.
Lemma commas_object ks ms : Forall2 member_json ks ms -> cjson (JObj ks) (object_of ms).
Proof.
  intros F. assert (X : ms = [] \/ jmembers no_ws false ks (commas ms)).
  { induction F as [|[k j] m ks ms (y & x & Jy & Jx & ->) F IH]; [left; reflexivity|]. right. cbn [fst snd] in *. destruct IH as [-> |IH].
    - inversion F; subst. assert (X := jm_one no_ws false [] k y [] [] j x [] eq_refl Jy eq_refl eq_refl Jx eq_refl). cbn [app] in X. rewrite app_nil_r in X. exact X.
    - destruct F as [|k' m' ks ms J' F]; [inversion IH|]. assert (X := jm_cons no_ws false [] k y [] [] j x [] _ _ eq_refl Jy eq_refl eq_refl Jx eq_refl IH). cbn [app] in X. rewrite commas_cons, <- !app_assoc. exact X. }
  destruct X as [-> |X]; [inversion F; subst; exact (j_obj0 no_ws false [] eq_refl) | exact (j_obj no_ws false ks (commas ms) X)].
Qed.

Section Same.
  Variable H : host.
  Variable vcall : mkind -> typ -> val -> option Z -> bytes + Z.
  Hypothesis SE : shortest_exact (h_shortest H).
  Hypothesis SO : sort_ok H.
  Hypothesis NM : no_methods H.
  Variable o : encOpts.
  Variable html : bool.
  Hypothesis STD : std_opts html o.

  Lemma sorted_entries es : NoDup (map fst es) -> utf8_keys es -> exists es' ks, Permutation es es' /\ map fst es' = map VStr ks /\ StronglySorted lexlt ks.
  Proof.
    intros N K. pose (kvs := map (fun e : val * val => (match fst e with VStr s => s | _ => [] end, @nil Z)) es).
    assert (F : Forall2 (fun kv e => fst e = VStr (fst kv)) kvs es).
    { clear N. subst kvs. induction es as [|[k v] es IH]; constructor; [|apply IH; intros k0 v0 Hi; apply (K k0 v0); right; exact Hi]. destruct (K k v (or_introl eq_refl)) as (s & _ & -> & _). reflexivity. }
    destruct (SO kvs) as [P S]. destruct (Forall2_perm _ _ _ P _ F) as (es' & F' & P'). exists es', (map fst (h_sort H kvs)). split; [exact P'|].
    assert (M : map fst es' = map VStr (map fst (h_sort H kvs))) by (clear - F'; induction F' as [|kv e l l' Q _ IH]; [reflexivity | cbn [map]; rewrite IH, Q; reflexivity]). split; [exact M|].
    assert (N' : NoDup (map fst (h_sort H kvs))).
    { assert (X : NoDup (map fst es')) by (eapply Permutation_NoDup; [apply Permutation_map; exact P' | exact N]). rewrite M in X. exact (NoDup_map_inv _ _ X). }
    clear - S N'. induction S as [|kv l S IH Fk]; [constructor|]. cbn [map] in *. inversion N' as [|? ? N1 N2]; subst. constructor; [auto|].
    rewrite Forall_forall in *. intros k Hk. apply in_map_iff in Hk. destruct Hk as (kv' & <- & Hi). split; [apply key_le_lex, Fk, Hi|]. intros Es. apply N1. rewrite Es. apply List.in_map, Hi.
  Qed.

  Lemma std_exists t v : generic t v -> forall a, exists x j, std H vcall html t a false v x /\ cjson j x /\ decodes j (as_any t v).
  Proof.
    intros G. assert (SH := proj1 SE). assert (Nm := fun a => gen_no_marshaler H NM t v a G). induction G as [|t v Nt G IH|b|f F|s rs U|vs Gv IH|es N Hk Gv IH]; intros a.
    - exists (lit "null"), JNull. split; [apply S_nil; [apply Nm | right; left; exists None; reflexivity]|]. split; constructor.
    - destruct (IH (fun a => gen_no_marshaler H NM t v a G) false) as (x & j & S & J & D). exists x, j. split; [eapply S_iface; [apply Nm | reflexivity | exact S]|]. split; [exact J|].
      assert (Ex : as_any t v = VIface t v) by (assert (Y := generic_cases t v G); intuition (subst; try reflexivity)). rewrite Ex in D. exact D.
    - destruct b; [exists (lit "true"), (JBool true) | exists (lit "false"), (JBool false)]; (split; [constructor; [apply Nm | reflexivity] | split; constructor]).
    - destruct (spelled_ex (h_shortest H) true f SH) as [x X]; [intros neg ->; contradiction | intros ->; contradiction|]. destruct (float_doc _ _ _ _ SH (spelled_append _ _ _ _ SH X)) as [T Jn].
      exists x, (JNum x). split; [eapply S_float; [apply Nm | reflexivity | exact X]|]. split; [apply j_num, Jn|]. constructor. eapply float_text_read; eassumption.
    - assert (B := utf8_string_bytes _ _ U). exists (encode_string [] s o), (JStr (flat_map utf16 rs)). split; [apply S_str; [apply Nm | reflexivity | apply std_string; assumption]|].
      split; [|econstructor; exact U]. rewrite (encode_string_is _ _ B). apply (j_str no_ws false _ (escaped o s)). exact (escaped_units o html STD s rs U).
    - assert (X : exists xs js, std_elems H vcall html any_t true vs xs /\ Forall2 cjson js xs /\ decodes_list js vs).
      { clear Nm. induction vs as [|v vs IHv]; [exists [], []; repeat split; constructor|]. destruct IHv as (xs & js & S & F & D); [intros; apply Gv; right; assumption | intros; apply IH; [right; assumption | assumption]|].
        destruct (IH v (or_introl eq_refl) (fun a => gen_no_marshaler H NM any_t v a (Gv v (or_introl eq_refl))) true) as (x & j & S1 & J1 & D1). exists (x :: xs), (j :: js). repeat split; constructor; assumption. }
      destruct X as (xs & js & S & F & D). exists (array_of xs), (JArr js). split; [eapply S_slice; [apply Nm | reflexivity | discriminate | exact S]|]. split; [apply commas_array, F | constructor; exact D].
    - destruct (sorted_entries es N Hk) as (es' & ks & P & M & So). assert (I' : incl es' es) by (intros e Hi; eapply Permutation_in; [apply Permutation_sym; exact P | exact Hi]).
      assert (X : exists ms js, std_entries H vcall html TString any_t es' ks ms /\ Forall2 member_json js ms /\ decodes_members js es').
      { clear P So. revert ks M I'. induction es' as [|[k v] es' IHe]; intros ks M I'; destruct ks as [|s ks]; try discriminate M; [exists [], []; repeat split; constructor|]. cbn [map fst] in M. injection M as -> M.
        destruct (IHe ks M (fun e Hi => I' e (or_intror Hi))) as (ms & js & S & F & D). assert (Hi := I' _ (or_introl eq_refl)). destruct (Hk _ _ Hi) as (s' & rs & [= <-] & U). assert (B := utf8_string_bytes _ _ U).
        destruct (IH _ _ Hi (fun a => gen_no_marshaler H NM any_t v a (Gv _ _ Hi)) false) as (x & j & S1 & J1 & D1).
        exists ((encode_string [] s o ++ lit ":" ++ x) :: ms), ((flat_map utf16 rs, j) :: js). split; [|split].
        - apply SM_cons; [apply ks_str; reflexivity | apply std_string; assumption | exact S1 | exact S].
        - constructor; [|exact F]. exists (escaped o s), x. split; [exact (escaped_units o html STD s rs U)|]. split; [exact J1|]. rewrite (encode_string_is _ _ B), <- !app_assoc. reflexivity.
        - constructor; assumption. }
      destruct X as (ms & js & S & F & D). exists (object_of ms), (JObj js). split; [eapply S_map; [apply Nm | reflexivity | left; reflexivity | exact P | exact S | exact So]|]. split; [apply commas_object, F|].
      eapply dc_obj; [exact D | eapply Permutation_NoDup; [apply Permutation_map; exact P | exact N] | apply Permutation_sym, P].
  Qed.
End Same.

(** Even when the bytes differ, both are documents, of the same length, and
    decode to the same values. *)
Theorem C58_generic_same H vcall m t w v opts o html out : host_ok H vcall -> shortest_exact (h_shortest H) -> sort_ok H -> no_methods H -> std_opts html o ->
  generic t v -> t <> any_t -> holds H m t w v -> call_opts opts = Some o -> marshal_returns H m (Some (t, w)) opts (MOk out) ->
  exists out', (forall x, std H vcall html t false false v x <-> x = out') /\ length out' = length out /\
    exists j j', json_text false j out /\ json_text false j' out' /\ forall d, decodes j d <-> decodes j' d.
Proof.
  intros OK SE SO NM So G Nt Hh Ho R. assert (C := generic_call H o NM m t w v opts G Hh Ho).
  destruct (std_exists H vcall SE SO NM o html So t v G false) as (out' & j' & S & J & D). exists out'.
  split; [intros x; split; [intros X; eapply C58_unique; [exact (proj1 SE) | exact X | exact S] | intros ->; exact S]|].
  split; [exact (same_length H vcall (proj1 SE) SO NM o html So t v G _ _ _ _ S (call_bytes H vcall OK m t w v opts o C out R))|].
  destruct (C72_roundtrip H vcall m t w v opts o OK SE SO NM (gen_esc o html So) G Nt Hh Ho) as (out0 & R0 & (j & Hj) & Q). assert (Eo := marshal_returns_det _ _ _ _ _ _ R0 R). injection Eo as ->.
  exists j, j'. split; [exact Hj|]. split; [apply cjson_text, J|]. assert (Ex : as_any t v = VIface t v) by (assert (Y := generic_cases t v G); intuition (subst; try reflexivity)). rewrite Ex in D.
  intros d. rewrite (Q j Hj d). split.
  - intros (v' & -> & Sv). apply (proj1 decodes_shuffle_all _ _ D). apply sh_iface, Sv.
  - intros Dd. assert (Sv := proj1 decodes_det_all _ _ D _ Dd). inversion Sv as [|? ? ?|? ? v' S1| | | | |]; subst; [exists v; split; [reflexivity | apply sh_refl] | eauto].
Qed.

(** ** Concrete cases *)
(** []interface{}{map[string]interface{}{"<": nil, "=": nil}}: the first key is
    written \u003c, which comes after the second one. *)
Definition lt_es : list (val * val) := [(VStr (lit "<"), VNil); (VStr (lit "="), VNil)].
Definition lt_v : val := VSlice [VIface dict_t (VMap lt_es)].
Lemma lt_generic : generic list_t lt_v.
Proof.
  constructor. intros v [<-|[]]. apply g_some; [discriminate|]. constructor; [repeat constructor; cbn; intuition discriminate | | intros k v [[= <- <-]|[[= <- <-]|[]]]; constructor].
  intros k v [[= <- <-]|[[= <- <-]|[]]]; [exists [60], [60] | exists [61], [61]]; (split; [reflexivity | apply ascii1; lia]).
Qed.
Lemma lt_holds : holds flH (mem_of flH list_t lt_v) list_t (word_of flH list_t lt_v) lt_v.
Proof. apply (c_holds flH _ _ _ _ [] default_opts). apply (Properties_Lossless.fl_call 10); [reflexivity | vm_compute; reflexivity]. Qed.
Lemma default_std : std_opts true default_opts. Proof. repeat split. Qed.
Definition no_html : encOpts := set_flag default_opts noHTMLEscaping.
Lemma no_html_std : std_opts false no_html. Proof. repeat split. Qed.
Lemma no_html_call : call_opts [Some ONoHTMLEscaping] = Some no_html. Proof. reflexivity. Qed.

Lemma escapes_to html o s y : std_opts html o -> bytes_ok s -> escape_text html s y -> y = escaped o s.
Proof. intros So B Y. exact (escape_text_det _ _ _ _ Y (std_escaped html o s So B)). Qed.
Ltac one_byte := constructor; [unfold is_byte; lia | constructor].

(** Another order with HTML escaping, the same bytes without. *)
Example C58_ex_generic :
  (marshal_returns flH (mem_of flH list_t lt_v) (Some (list_t, word_of flH list_t lt_v)) [] (MOk (lit "[{""="":null,""\u003c"":null}]")) /\
    ~ std flH fl_vcall true list_t false false lt_v (lit "[{""="":null,""\u003c"":null}]")) /\
  (marshal_returns flH (mem_of flH list_t lt_v) (Some (list_t, word_of flH list_t lt_v)) [Some ONoHTMLEscaping] (MOk (lit "[{""<"":null,""="":null}]")) /\
    std flH fl_vcall false list_t false false lt_v (lit "[{""<"":null,""="":null}]")).
Proof.
  split.
  - assert (R : marshal_returns flH (mem_of flH list_t lt_v) (Some (list_t, word_of flH list_t lt_v)) [] (MOk (lit "[{""="":null,""\u003c"":null}]"))) by (exists 20%nat; split; [vm_compute; reflexivity | discriminate]).
    split; [exact R|]. intros S.
    apply (C58_generic flH fl_vcall _ list_t _ lt_v [] default_opts true _ fl_ok (proj1 shortest_dec_exact) fl_sort fl_no_methods default_std lt_generic lt_holds eq_refl R) with (es := lt_es) in S;
      [|eapply w_elem; [left; reflexivity | apply w_iface, w_here]].
    destruct (S [60] VNil [61] VNil (escaped default_opts [60]) (escaped default_opts [61])) as [L _]; [left; reflexivity | right; left; reflexivity | apply std_escaped; [exact default_std | one_byte] | apply std_escaped; [exact default_std | one_byte]
      | split; [apply ll_lt; lia | discriminate]|].
    vm_compute in L. inversion L. lia.
  - assert (R : marshal_returns flH (mem_of flH list_t lt_v) (Some (list_t, word_of flH list_t lt_v)) [Some ONoHTMLEscaping] (MOk (lit "[{""<"":null,""="":null}]"))) by (exists 20%nat; split; [vm_compute; reflexivity | discriminate]).
    split; [exact R|].
    apply (C58_generic flH fl_vcall _ list_t _ lt_v [Some ONoHTMLEscaping] no_html false _ fl_ok (proj1 shortest_dec_exact) fl_sort fl_no_methods no_html_std lt_generic lt_holds no_html_call R).
    intros es W. inversion W as [| |? v ? Hi W1|]; subst. destruct Hi as [<-|[]]. inversion W1 as [|? ? ? W2| |]; subst.
    inversion W2 as [| | |? k v ? Hi W3]; subst; [|destruct Hi as [[= <- <-]|[[= <- <-]|[]]]; inversion W3].
    intros s x s' x' y y' Hi Hi' Y Y' L. destruct Hi as [[= <- <-]|[[= <- <-]|[]]]; destruct Hi' as [[= <- <-]|[[= <- <-]|[]]]; (apply (escapes_to false no_html) in Y; [|exact no_html_std | apply lit_bytes]); (apply (escapes_to false no_html) in Y'; [|exact no_html_std | apply lit_bytes]);
      subst y y'; vm_compute; exact L.
Qed.

(** The two texts of the first case, and that they decode to the same values. *)
Example C58_ex_same : exists j j', json_text false j (lit "[{""="":null,""\u003c"":null}]") /\ json_text false j' (lit "[{""\u003c"":null,""="":null}]") /\
  std flH fl_vcall true list_t false false lt_v (lit "[{""\u003c"":null,""="":null}]") /\ forall d, decodes j d <-> decodes j' d.
Proof.
  assert (Nm := fun t v a => gen_no_marshaler flH fl_no_methods t v a).
  assert (Gi : generic any_t (VIface dict_t (VMap lt_es))) by (assert (X := lt_generic); inversion X as [| | | | |? Gv|]; subst; apply Gv; left; reflexivity).
  assert (Gm : generic dict_t (VMap lt_es)) by (inversion Gi; assumption).
  assert (K : forall s y, bytes_ok s -> y = escaped default_opts s -> string_json true s (lit """" ++ y ++ lit """")) by (intros s y B ->; exists (escaped default_opts s); split; [apply std_escaped; [exact default_std | exact B] | reflexivity]).
  assert (Nl : std flH fl_vcall true any_t false false VNil (lit "null")) by (apply S_nil; [apply (Nm _ _ _ g_nil) | right; left; exists None; reflexivity]).
  assert (S : std flH fl_vcall true list_t false false lt_v (lit "[{""\u003c"":null,""="":null}]")).
  { assert (Sm : std flH fl_vcall true dict_t false false (VMap lt_es) (object_of [(lit """" ++ lit "\u003c" ++ lit """") ++ lit ":" ++ lit "null"; (lit """" ++ lit "=" ++ lit """") ++ lit ":" ++ lit "null"])).
    { eapply S_map; [apply (Nm _ _ _ Gm) | reflexivity | left; reflexivity | apply Permutation_refl | |].
      - apply SM_cons; [apply ks_str; reflexivity | apply K; [apply lit_bytes | vm_compute; reflexivity] | exact Nl|]. apply SM_cons; [apply ks_str; reflexivity | apply K; [apply lit_bytes | vm_compute; reflexivity] | exact Nl | constructor].
      - constructor; [repeat constructor|]. constructor; [|constructor]. split; [apply ll_lt; vm_compute; reflexivity | discriminate]. }
    refine (S_slice flH fl_vcall true list_t false false any_t [VIface dict_t (VMap lt_es)] [_] (Nm _ _ _ lt_generic) eq_refl ltac:(discriminate) (SE_cons _ _ _ _ _ _ _ _ _ (S_iface _ _ _ _ _ _ None dict_t (VMap lt_es) _ (Nm _ _ _ Gi) eq_refl Sm) (SE_nil _ _ _ _ _))). }
  destruct C58_ex_generic as ((R & _) & _).
  destruct (C58_generic_same flH fl_vcall _ list_t _ lt_v [] default_opts true _ fl_ok shortest_dec_exact fl_sort fl_no_methods default_std lt_generic ltac:(discriminate) lt_holds eq_refl R) as (out' & U & _ & j & j' & J & J' & Q).
  apply U in S. subst out'. exists j, j'. split; [exact J|]. split; [exact J'|]. split; [apply U; reflexivity | exact Q].
Qed.

Print Assumptions C58_generic.
Print Assumptions C58_generic_same.
