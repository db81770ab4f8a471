(** C54: different values of a type have different encodings. *)
From Coq Require Import Permutation.
From Verif Require Import Base Utf8 JsonSpec OptionsModel EscapeModel EscapeProof NumberProof JsonParse IntModel IntProof TypesModel TypesFacts FloatModel FloatProof FloatSpec FloatShort Base64Proof LeafModel LeafProof
  MemModel FieldsModel InstrModel ExecModel ValueModel ExecProof HostFacts VencFacts MarshalThm DocSpec EntriesFacts DocLeaf PartFacts DocProof SafeProof ApiFacts PartsThm ShapeThm CallFacts ShuffleThm OrderThm
  ExampleHost ExampleConst ExampleRead Properties_Options Properties_Strings Properties_Numbers Properties_Floats Properties_Members Properties_Maps Properties_Api.

(** ** Bytes of JSON texts *)
Lemma jchars_bytes lax us s : jchars lax us s -> bytes_ok s.
Proof.
  assert (Hx : forall h a, hexval h = Some a -> is_byte h).
  { intros h a Hh. unfold hexval in Hh. unfold is_byte. destruct ((48 <=? h) && (h <=? 57)) eqn:E1; [lia|]. destruct ((97 <=? h) && (h <=? 102)) eqn:E2; [lia|]. destruct ((65 <=? h) && (h <=? 70)) eqn:E3; [lia | discriminate]. }
  assert (He : forall c u, esc2 c = Some u -> is_byte c).
  { intros c u Hc. unfold esc2 in Hc. unfold is_byte. repeat match goal with X : (if ?b then _ else _) = _ |- _ => destruct b eqn:?; [lia|] end. discriminate. }
  assert (B92 : is_byte 92) by (unfold is_byte; lia). assert (B117 : is_byte 117) by (unfold is_byte; lia).
  induction 1.
  - constructor.
  - apply bytes_ok_app. split; [apply utf8_bytes; assumption | assumption].
  - constructor; [exact B92|]. constructor; [eapply He; eassumption | assumption].
  - repeat (constructor; [first [exact B92 | exact B117 | eapply Hx; eassumption]|]). assumption.
  - constructor; assumption.
Qed.

Lemma json_bytes lax : (forall j s, json no_ws lax j s -> bytes_ok s) /\ (forall js s, jelems no_ws lax js s -> bytes_ok s) /\ (forall ms s, jmembers no_ws lax ms s -> bytes_ok s).
Proof.
  assert (B : forall c, (0 <=? c) && (c <? 256) = true -> is_byte c) by (intros c Hc; unfold is_byte; lia).
  assert (L : forall s, forallb (fun c => (0 <=? c) && (c <? 256)) s = true -> bytes_ok s).
  { induction s as [|c s IH]; intros Hs; [constructor|]. cbn [forallb] in Hs. apply andb_prop in Hs. destruct Hs. constructor; [apply B; assumption | apply IH; assumption]. }
  apply json_mutind; intros; unfold no_ws in *; subst; cbn [app];
    repeat match goal with
    | |- bytes_ok (_ ++ _) => apply bytes_ok_app; split
    | |- bytes_ok (_ :: _) => apply bytes_ok_cons; split; [apply B; reflexivity|]
    | J : jchars _ _ ?s |- bytes_ok ?s => eapply jchars_bytes; exact J
    end; try assumption; try (apply L; reflexivity).
  apply jnumber_chars in j. clear - j. induction j as [|c l Hc _ IH]; constructor; [unfold numchar, digit in Hc; unfold is_byte; lia | exact IH].
Qed.

Section Lossless.
  Variable H : host.
  Variable vcall : mkind -> typ -> val -> option Z -> bytes + Z.
  Variable o : encOpts.
  Notation E := (h_env H).
  Notation opt := (has (o_flags o)).
  Notation Doc := (doc H vcall o).

  (** No method and no encoding of its own. *)
  Definition bare (t : typ) : Prop := forall ca, DocSpec.plain H t ca.
  Definition never_null (t : typ) : Prop :=
    match under E t with TBool | TInt _ | TFloat _ | TString | TArray _ _ | TStruct _ => True | _ => False end.

  (** A field of the struct itself that is always written, as it is. *)
  Definition own_field (f : field) (i : nat) : Prop :=
    f_index f = [i] /\ ~ denied o (f_name f) /\ f_omitNil f = false /\ f_omitEmpty f = false /\ f_quoted f = false.

  (** Values all of whose content is encoded: no interfaces, no methods, strings
      that are UTF-8, finite floats, every field of a struct written, and
      options under which nil and empty differ. *)
  Inductive kept : typ -> val -> Prop :=
  | k_bool t b : bare t -> under E t = TBool -> kept t (VBool b)
  | k_int t k n : bare t -> under E t = TInt k -> kept t (VInt n)
  | k_float t b f : bare t -> under E t = TFloat b -> finite_float b f -> kept t (VFloat f)
  | k_str t s rs : bare t -> under E t = TString -> utf8_string s rs -> kept t (VStr s)
  | k_nil_ptr t e : bare t -> under E t = TPtr e -> bare e -> never_null e -> kept t VNil
  | k_ptr t e v : bare t -> under E t = TPtr e -> bare e -> never_null e -> kept e v -> kept t (VPtr v)
  | k_nil_slice t e : bare t -> under E t = TSlice e -> opt nilSliceEmpty = false -> kept t VNil
  | k_slice t e vs : bare t -> under E t = TSlice e -> byte_elem H e = false -> (forall v, In v vs -> kept e v) -> kept t (VSlice vs)
  | k_bytes t e vs b : bare t -> under E t = TSlice e -> byte_elem H e = true -> opt rawByteSlice = false -> vbytes vs = Some b -> kept t (VSlice vs)
  | k_arr t n e vs : bare t -> under E t = TArray n e -> byte_elem H e && opt byteArrayAsString = false -> (forall v, In v vs -> kept e v) -> kept t (VArr vs)
  | k_nil_map t kt et : bare t -> under E t = TMap kt et -> isString E kt = true -> opt nilMapEmpty = false -> kept t VNil
  | k_map t kt et es : bare t -> under E t = TMap kt et -> isString E kt = true -> (forall k v, In (k, v) es -> (exists s rs, k = VStr s /\ utf8_string s rs) /\ kept et v) -> kept t (VMap es)
  | k_struct t fs0 n fs vs : bare t -> under E t = TStruct fs0 -> structFields H n t = Some fs -> length vs = length fs0 ->
      (forall f, In f fs -> exists i, own_field f i) -> (forall i, (i < length fs0)%nat -> exists f, In f fs /\ f_index f = [i]) ->
      (forall i d u v, nth_error fs0 i = Some (d, u) -> nth_error vs i = Some v -> kept u v) -> kept t (VStruct vs).

  Lemma kept_bare t v : kept t v -> bare t. Proof. destruct 1; assumption. Qed.

  (** ** What such a value means *)
  Definition meaning (t : typ) (ca : bool) (v : val) (j : jval) : Prop :=
    match under E t with
    | TBool => exists b, v = VBool b /\ j = JBool b
    | TInt _ => exists n l, v = VInt n /\ j = JNum l /\ int_lit l n
    | TFloat b => exists f l, v = VFloat f /\ finite_float b f /\ j = JNum l /\ float_text (h_shortest H) b f l
    | TString => exists s rs us, v = VStr s /\ utf8_string s rs /\ j = JStr us /\ string_units s us
    | TPtr e => never_null e /\ (v = VNil /\ j = JNull \/ exists x, v = VPtr x /\ kept e x /\ Doc e true false x j)
    | TSlice e => v = VNil /\ j = JNull \/
        (exists vs js, byte_elem H e = false /\ v = VSlice vs /\ (forall x, In x vs -> kept e x) /\ j = JArr js /\ doc_elems H vcall o e true vs js) \/
        (exists vs b s us, byte_elem H e = true /\ v = VSlice vs /\ vbytes vs = Some b /\ j = JStr us /\ base64_text s b /\ string_units s us)
    | TArray _ e => exists vs js, v = VArr vs /\ (forall x, In x vs -> kept e x) /\ j = JArr js /\ doc_elems H vcall o e ca vs js
    | TMap kt et => v = VNil /\ j = JNull \/
        exists es ms ms', v = VMap es /\ (forall k x, In (k, x) es -> (exists s rs, k = VStr s /\ utf8_string s rs) /\ kept et x) /\ j = JObj ms' /\ Permutation ms ms' /\ doc_entries H vcall o kt et es ms
    | TStruct fs0 => exists vs fs n ms, v = VStruct vs /\ structFields H n t = Some fs /\ length vs = length fs0 /\
        (forall f, In f fs -> exists i, own_field f i) /\ (forall i, (i < length fs0)%nat -> exists f, In f fs /\ f_index f = [i]) /\
        (forall i d u v, nth_error fs0 i = Some (d, u) -> nth_error vs i = Some v -> kept u v) /\ j = JObj ms /\ doc_fields H vcall o t ca v fs ms
    | _ => False
    end.

  Ltac unplain := match goal with B : bare ?t, X : native ?t = false, M : method_of H ?t ?ca = Some _ |- _ => destruct (B ca) as [_ ?]; congruence end.
  Lemma kept_means t ca v j : kept t v -> Doc t ca false v j -> meaning t ca v j.
  Proof.
    intros K D. assert (B := kept_bare t v K). destruct (B ca) as [B1 B2]. unfold meaning.
    destruct K; match goal with U : under E t = _ |- _ => rewrite U end;
      inversion D; subst; try discriminate; try unplain; try congruence;
      repeat match goal with U : under E t = ?a, U' : under E t = ?b |- _ => rewrite U in U'; try discriminate U'; injection U' as; subst end.
    all: try (eauto 12; fail).
    - left. split; [reflexivity|]. match goal with X : opt nilSliceEmpty = false |- _ => rewrite X end. reflexivity.
    - exfalso. match goal with X : byte_elem H _ && _ = false, Y : byte_elem H _ = true, W : opt byteArrayAsString = true |- _ => rewrite Y, W in X; discriminate X end.
    - left. split; [reflexivity|]. match goal with X : opt nilMapEmpty = false |- _ => rewrite X end. reflexivity.
    - match goal with S1 : structFields H _ t = Some ?a, S2 : structFields H _ t = Some ?b |- _ => assert (a = b) by (eapply structFields_det; eassumption); subst end.
      do 4 eexists. split; [reflexivity|]. split; [eassumption|]. split; [assumption|]. split; [eassumption|]. split; [eassumption|]. split; [eassumption|].
      split; [reflexivity|]. assumption.
  Qed.

  Lemma not_null t ca v : never_null t -> kept t v -> ~ Doc t ca false v JNull.
  Proof.
    intros N K D. apply (kept_means t ca v JNull K) in D. unfold meaning in D. unfold never_null in N.
    destruct (under E t); try contradiction; repeat match type of D with ex _ => destruct D as [? D] end; repeat match type of D with _ /\ _ => destruct D as [? D] end; discriminate.
  Qed.

  (** ** Such values are encoded as documented *)
  Lemma kept_child t ca v y : kept t v -> child H o (t, ca, false, v) y -> exists t' ca' v', y = (t', ca', false, v') /\ kept t' v'.
  Proof.
    intros K C. assert (B := kept_bare t v K). destruct (B ca) as [B1 _]. remember (t, ca, false, v) as x eqn:Ex. destruct C; injection Ex; intros; subst; try discriminate; inversion K; subst;
      repeat match goal with U : under E t = ?a, U' : under E t = ?b |- _ => rewrite U in U'; try discriminate U'; injection U' as; subst end; try congruence.
    all: try (do 3 eexists; split; [reflexivity|]; eauto; fail).
    - do 3 eexists. split; [reflexivity|]. match goal with A : In (?k, ?x) ?es, F : forall k x, In (k, x) ?es -> _ |- _ => apply (F k x A) end.
    - match goal with S1 : structFields H _ t = Some ?a, S2 : structFields H _ t = Some ?b |- _ => assert (a = b) by (eapply structFields_det; eassumption); subst end.
      match goal with O : forall f, In f _ -> exists i, own_field f i, I : In ?f _ |- _ => destruct (O f I) as (i & Ei & _ & _ & _ & N3) end.
      match goal with Sw : shown H o t _ _ _ _ |- _ => destruct Sw as (_ & (V1 & V2) & _) end. rewrite Ei in V1, V2. cbn [vget] in V1. destruct (nth_error vs i) as [y|] eqn:Ey; [|discriminate]. injection V1 as ->.
      cbn [type_by_index] in V2. unfold fields_of in V2. match goal with U : under E t = TStruct _ |- _ => rewrite U in V2; cbn beta iota in V2; try rewrite U in V2 end.
      destruct (nth_error fs1 i) as [[d u]|] eqn:Ef; [|discriminate]. injection V2 as <-. unfold quoted. rewrite N3. do 3 eexists. split; [reflexivity|]. eauto.
  Qed.

  Lemma kept_sound lax t ca v : kept t v -> all_sound H vcall o lax (t, ca, false, v).
  Proof.
    intros K y Hy. assert (G : exists t' ca' v', y = (t', ca', false, v') /\ kept t' v').
    { remember (t, ca, false, v) as x eqn:Ex. revert t ca v K Ex. induction Hy as [x|x y z C _ IH]; intros t ca v K ->; [eauto|]. destruct (kept_child _ _ _ _ K C) as (t' & ca' & v' & -> & K'). eapply IH; [exact K' | reflexivity]. }
    clear t ca v K Hy. destruct G as (t & ca & v & -> & K). assert (B := kept_bare t v K). destruct (B ca) as [B1 B2].
    assert (G : match under E t, v with
      | TString, VStr s => false = true -> quotable s
      | TSlice e, VNil => byte_elem H e = true -> opt nilSliceEmpty = false
      | TMap kt _, VMap es => forall k v, In (k, v) es -> key_sound H o kt false k
      | TStruct _, VStruct vs =>
        forall n pre f post ft x, structFields H n t = Some (pre ++ f :: post) -> Forall (hidden H o t v) pre -> shown H o t v f ft x ->
          drops_null H f ft -> ~ doc H vcall o ft ca (quoted H f ft) x JNull
      | _, _ => True
      end).
    { destruct K; match goal with U : under E t = _ |- _ => rewrite U end; try exact I; try discriminate; try (intros; assumption).
      - intros k v Hi S. congruence.
      - intros n' pre f post ft x S _ _ [D _]. match goal with S1 : structFields H _ t = Some fs |- _ => assert (X := structFields_det H _ _ _ _ _ S S1) end.
        match goal with O : forall f, In f fs -> exists i, own_field f i |- _ => destruct (O f) as (i & _ & _ & N & _) end; [rewrite <- X; apply in_or_app; right; left; reflexivity | congruence]. }
    unfold sound_node. destruct t; try discriminate B1; rewrite B2; exact G.
  Qed.

  (** ** A meaning has one value *)
  Hypothesis SH : shortest_exact (h_shortest H).

  Lemma float_text_inj b f f' l : finite_float b f -> finite_float b f' -> float_text (h_shortest H) b f l -> float_text (h_shortest H) b f' l -> f = f'.
  Proof.
    destruct SH as [Sh Se]. intros F F' T T'.
    assert (Fin : forall neg mm e, float_of b (Zpos mm, e) -> float_text (h_shortest H) b (FFin neg mm e) l -> exists M K, num_value l M K /\ reads_as b M K (fsign neg (Zpos mm), e)).
    { intros neg mm e Hf (ds & dp & M & K & Es & V & Sm). exists M, K. split; [exact V|]. destruct (Se b mm e ds dp Hf Es) as (Rd & _).
      apply (reads_same b _ _ _ _ _ Sm). destruct neg; cbn [fsign]; [|exact Rd]. apply (reads_neg b (dval ds) _ (Zpos mm, e)). exact Rd. }
    assert (Mix : forall neg mm e (neg' : bool), float_of b (Zpos mm, e) -> float_text (h_shortest H) b (FFin neg mm e) l -> l = (if neg' then [45; 48] else [48]) -> False).
    { intros neg mm e neg' Hf T0 El. destruct (Fin _ _ _ Hf T0) as (M & K & V & R).
      assert (V0 : num_value l 0 0) by (rewrite El; destruct neg'; [apply (nv_neg [48] [] [] [] 0) | apply (nv_pos [48] [] [] [] 0)]; try constructor; auto).
      destruct (num_value_det _ _ _ _ _ V V0) as [-> ->]. assert (X := reads_unique _ _ _ _ _ R (reads_zero b)). destruct neg; discriminate X. }
    destruct f as [| |z|n mm e], f' as [| |z'|n' mm' e']; try contradiction.
    - cbn [float_text] in T, T'. rewrite T in T'. destruct z, z'; try reflexivity; discriminate.
    - exfalso. eapply Mix; eauto.
    - exfalso. eapply Mix; eauto.
    - destruct (Fin _ _ _ F T) as (M & K & V & R). destruct (Fin _ _ _ F' T') as (M' & K' & V' & R'). destruct (num_value_det _ _ _ _ _ V V') as [<- <-].
      assert (X := reads_unique _ _ _ _ _ R R'). destruct n, n'; cbn [fsign] in X; injection X as E1 E2; subst; try reflexivity; discriminate.
  Qed.

  Lemma text_inj s s' rs rs' us : utf8_string s rs -> utf8_string s' rs' -> string_units s us -> string_units s' us -> s = s'.
  Proof.
    intros U U' D D'. apply (C01_distinct s s' rs rs' U U'). rewrite <- (string_units_det _ _ _ D (string_units_valid s rs U)). exact (string_units_det _ _ _ D' (string_units_valid s' rs' U')).
  Qed.

  Lemma ascii_units s s' us : Forall pchar s -> Forall pchar s' -> string_units s us -> string_units s' us -> s = s'.
  Proof.
    assert (G : forall s, Forall pchar s -> utf8_string s s).
    { induction 1 as [|c l Hc _ IH]; [constructor|]. assert (X := us_cons c l l). rewrite utf8_ascii in X by (unfold pchar in Hc; lia). apply X; [unfold pchar in Hc; left; lia | exact IH]. }
    intros P P'. apply (text_inj s s' s s'); apply G; assumption.
  Qed.

  Lemma vbytes_inj vs : forall vs' b, vbytes vs = Some b -> vbytes vs' = Some b -> vs = vs'.
  Proof.
    induction vs as [|v vs IH]; intros vs' b A B.
    - injection A as <-. destruct vs' as [|v' vs']; [reflexivity|]. cbn in B. destruct v'; try discriminate. destruct (vbytes vs'); discriminate.
    - cbn in A. destruct v; try discriminate. destruct (vbytes vs) as [b1|] eqn:E1; [|discriminate]. injection A as <-.
      destruct vs' as [|v' vs']; [discriminate|]. cbn in B. destruct v'; try discriminate. destruct (vbytes vs') as [b2|] eqn:E2; [|discriminate]. injection B as -> ->. f_equal. eapply IH; eauto.
  Qed.

  Definition one_value (x : val) : Prop := forall t ca x' j, kept t x -> kept t x' -> Doc t ca false x j -> Doc t ca false x' j -> shuffle x x'.

  Lemma elems_inj e ca vs : forall vs' js, (forall x, In x vs -> one_value x /\ kept e x) -> (forall x, In x vs' -> kept e x) ->
    doc_elems H vcall o e ca vs js -> doc_elems H vcall o e ca vs' js -> Forall2 shuffle vs vs'.
  Proof.
    induction vs as [|v vs IH]; intros vs' js O K A B; inversion A; subst; inversion B; subst; [constructor|].
    constructor; [|eapply IH; eauto; intros x Hx; [apply O | apply K]; right; exact Hx].
    destruct (O v (or_introl eq_refl)) as [O1 K1]. eapply O1; [exact K1 | apply K; left; reflexivity | eassumption | eassumption].
  Qed.

  Lemma entries_rel kt et es ms : doc_entries H vcall o kt et es ms -> Forall2 (fun e m => doc_key H vcall o kt false (fst e) (fst m) /\ Doc et false false (snd e) (snd m)) es ms.
  Proof. revert ms. induction es as [|[k x] es IH]; intros ms D; inversion D; subst; constructor; [split; assumption | apply IH; assumption]. Qed.

  Lemma key_units kt s us : isString E kt = true -> doc_key H vcall o kt false (VStr s) us -> string_units s us.
  Proof.
    intros S D. inversion D; subst; try assumption; try congruence. exfalso. match goal with X : isInteger E kt = true |- _ => unfold isInteger in X; unfold isString in S; destruct (under E kt); discriminate end.
  Qed.

  Lemma map_inj kt et es es' ms ms2 ms' : isString E kt = true ->
    (forall k x, In (k, x) es -> (exists s rs, k = VStr s /\ utf8_string s rs) /\ kept et x /\ one_value x) -> (forall k x, In (k, x) es' -> (exists s rs, k = VStr s /\ utf8_string s rs) /\ kept et x) ->
    doc_entries H vcall o kt et es ms -> Permutation ms ms' -> doc_entries H vcall o kt et es' ms2 -> Permutation ms2 ms' -> shuffle (VMap es) (VMap es').
  Proof.
    intros S K K' D P D' P'. assert (Q : Permutation ms ms2) by (eapply Permutation_trans; [exact P | apply Permutation_sym, P']).
    apply entries_rel in D, D'.
    assert (F : Forall2 (fun m e => doc_key H vcall o kt false (fst e) (fst m) /\ Doc et false false (snd e) (snd m)) ms es) by (clear - D; induction D; constructor; assumption).
    destruct (Forall2_perm _ _ _ Q _ F) as (es1 & A1 & A2). apply (sh_map es es1 es' A2).
    assert (K1 : forall k x, In (k, x) es1 -> (exists s rs, k = VStr s /\ utf8_string s rs) /\ kept et x /\ one_value x) by (intros k x Hi; apply K; eapply Permutation_in; [apply Permutation_sym, A2 | exact Hi]).
    clear - S K1 K' A1 D' SH. revert es1 K1 A1. induction D' as [|[k' x'] m es' ms2 [B1 B2] D' IH]; intros es1 K1 A1; inversion A1 as [|? [k x] ? es2 [C1 C2] C3]; subst; constructor.
    - destruct (K1 k x (or_introl eq_refl)) as ((s & rs & -> & U) & K2 & O). destruct (K' k' x' (or_introl eq_refl)) as ((s' & rs' & -> & U') & K2'). cbn [fst snd] in *.
      split; [|eapply O; eauto]. assert (s = s') by (eapply text_inj; [exact U | exact U' | eapply key_units; eauto | eapply key_units; eauto]). subst s'. apply sh_refl.
    - apply IH; [intros; apply K'; right; assumption | intros; apply K1; right; assumption | exact C3].
  Qed.

  Lemma fields_inj t ca fs0 vs vs' fs : under E t = TStruct fs0 -> (forall f, In f fs -> exists i, own_field f i) ->
    (forall i d u v, nth_error fs0 i = Some (d, u) -> nth_error vs i = Some v -> kept u v /\ one_value v) -> (forall i d u v, nth_error fs0 i = Some (d, u) -> nth_error vs' i = Some v -> kept u v) ->
    forall ms, doc_fields H vcall o t ca (VStruct vs) fs ms -> doc_fields H vcall o t ca (VStruct vs') fs ms ->
    forall f i, In f fs -> f_index f = [i] -> exists x x', nth_error vs i = Some x /\ nth_error vs' i = Some x' /\ shuffle x x'.
  Proof.
    intros U. assert (T : forall i ft, type_by_index H t [i] = Some ft -> exists d, nth_error fs0 i = Some (d, ft)).
    { intros i ft X. cbn [type_by_index] in X. rewrite U in X. unfold fields_of in X. rewrite U in X. destruct (nth_error fs0 i) as [[d u]|]; [injection X as <-; eauto | discriminate]. }
    assert (G : forall vs f i, f_index f = [i] -> ~ denied o (f_name f) -> f_omitNil f = false -> f_omitEmpty f = false -> ~ hidden H o t (VStruct vs) f).
    { intros vs0 f i Ei Nd N1 N2 [X|[X|(ft & x & _ & [[X _]|[X _]])]]; try congruence. rewrite Ei in X. cbn [vget] in X. destruct (nth_error vs0 i); discriminate. }
    intros O K K'. induction fs as [|f fs IH]; intros ms D D' g i Hg Ei; [destruct Hg|].
    destruct (O f (or_introl eq_refl)) as (i0 & Ei0 & Nd & N1 & N2 & N3).
    assert (Inv : forall vs ms, doc_fields H vcall o t ca (VStruct vs) (f :: fs) ms -> exists d ft x us j ms1, nth_error fs0 i0 = Some (d, ft) /\ nth_error vs i0 = Some x /\ Doc ft ca false x j /\ ms = (us, j) :: ms1 /\ doc_fields H vcall o t ca (VStruct vs) fs ms1).
    { intros vs0 ms0 X. inversion X as [|? ? ? ? ? ? Hh _|? ? ? ? ? ? ft x _ [Dn _] _ _|? ? ? ? ? ? ft x us j (_ & (V1 & V2) & _) Dx _ Su Dr]; subst.
      - destruct (G _ _ _ Ei0 Nd N1 N2 Hh).
      - congruence.
      - rewrite Ei0 in V1, V2. cbn [vget] in V1. destruct (nth_error vs0 i0) as [y|] eqn:Ey; [|discriminate]. injection V1 as ->. destruct (T _ _ V2) as [d Ed]. unfold quoted in Dx. rewrite N3 in Dx. cbn [andb] in Dx. eauto 12. }
    destruct (Inv _ _ D) as (d & ft & x & us & j & ms1 & A1 & A2 & A3 & -> & A5). destruct (Inv _ _ D') as (d' & ft' & x' & us' & j' & ms1' & B1 & B2 & B3 & E5 & B5). injection E5 as <- <- <-.
    destruct Hg as [<- | Hg].
    - assert (i0 = i) by congruence. subst i0. exists x, x'. split; [exact A2|]. split; [exact B2|]. assert (X : (d', ft') = (d, ft)) by congruence. injection X as -> ->.
      destruct (K _ _ _ _ A1 A2) as [K1 O1]. eapply O1; [exact K1 | eapply K'; eauto | exact A3 | exact B3].
    - apply (IH (fun g Hg => O g (or_intror Hg)) ms1 A5 B5 g i Hg Ei).
  Qed.

  Lemma shuffle_nth vs : forall vs', length vs = length vs' -> (forall i, (i < length vs)%nat -> exists x x', nth_error vs i = Some x /\ nth_error vs' i = Some x' /\ shuffle x x') -> Forall2 shuffle vs vs'.
  Proof.
    induction vs as [|v vs IH]; intros [|v' vs'] L G; try discriminate; constructor.
    - destruct (G 0%nat ltac:(cbn; lia)) as (x & x' & [= <-] & [= <-] & S). exact S.
    - apply IH; [cbn in L; lia|]. intros i Hi. apply (G (S i)). cbn. lia.
  Qed.

  Theorem doc_one_value n : forall v, (vsize v < n)%nat -> one_value v.
  Proof.
    induction n as [|n IH]; intros v Hs; [lia|]. intros t ca v' j K K' D D'.
    apply (kept_means t ca v j K) in D. apply (kept_means t ca v' j K') in D'. unfold meaning in D, D'.
    destruct (under E t) as [|ik|fb| | | | | |im|pt|st|an at_|kt et|fs0| | | | | |] eqn:U; try contradiction.
    - destruct D as (b & -> & ->), D' as (b' & -> & [= ->]). apply sh_refl.
    - destruct D as (x & l & -> & -> & L), D' as (x' & l' & -> & [= <-] & L'). rewrite (int_lit_det _ _ _ L L'). apply sh_refl.
    - destruct D as (f & l & -> & F & -> & T), D' as (f' & l' & -> & F' & [= <-] & T'). rewrite (float_text_inj _ _ _ _ F F' T T'). apply sh_refl.
    - destruct D as (s & rs & us & -> & R & -> & S), D' as (s' & rs' & us' & -> & R' & [= <-] & S'). rewrite (text_inj _ _ _ _ _ R R' S S'). apply sh_refl.
    - destruct D as [N [(-> & ->)|(x & -> & Kx & Dx)]], D' as [_ [(-> & J)|(x' & -> & Kx' & Dx')]].
      + apply sh_refl.
      + destruct (not_null _ _ _ N Kx' Dx').
      + subst j. destruct (not_null _ _ _ N Kx Dx).
      + apply sh_ptr. eapply (IH x); eauto. cbn [vsize] in Hs. lia.
    - destruct D as [(-> & ->)|[(vs & js & Bv & -> & Kv & -> & Dv)|(vs & b & s & us & Bv & -> & Vb & -> & T & S)]],
        D' as [(-> & J)|[(vs' & js' & Bv' & -> & Kv' & J & Dv')|(vs' & b' & s' & us' & Bv' & -> & Vb' & J & T' & S')]]; try discriminate; try congruence.
      + apply sh_refl.
      + injection J as <-. apply sh_slice. eapply elems_inj; [|exact Kv' | exact Dv | exact Dv'].
        intros x Hx. split; [apply IH; cbn [vsize] in Hs; assert (X := vsize_in _ _ Hx); lia | apply Kv, Hx].
      + injection J as <-. assert (s = s') by (eapply ascii_units; [eapply base64_pchar; exact T | eapply base64_pchar; exact T' | exact S | exact S']). subst s'.
        rewrite <- (base64_text_det _ _ _ T T') in Vb'. rewrite (vbytes_inj vs vs' b Vb Vb'). apply sh_refl.
    - destruct D as (vs & js & -> & Kv & -> & Dv), D' as (vs' & js' & -> & Kv' & [= <-] & Dv'). apply sh_arr. eapply elems_inj; [|exact Kv' | exact Dv | exact Dv'].
      intros x Hx. split; [apply IH; cbn [vsize] in Hs; assert (X := vsize_in _ _ Hx); lia | apply Kv, Hx].
    - assert (Sk : forall v, kept t v -> isString E kt = true) by (destruct 1; congruence).
      destruct D as [(-> & ->)|(es & ms & ms' & -> & Ke & -> & P & De)], D' as [(-> & J)|(es' & ms2 & ms3 & -> & Ke' & J & P' & De')]; try discriminate; [apply sh_refl|].
      injection J as <-. eapply (map_inj kt et es es' ms ms2 ms'); [eapply Sk; exact K | | exact Ke' | exact De | exact P | exact De' | exact P'].
      intros k x Hx. destruct (Ke k x Hx) as [A B]. split; [exact A|]. split; [exact B|]. apply IH. cbn [vsize] in Hs. assert (X := vsize_entry _ _ _ Hx). lia.
    - destruct D as (vs & fs & k & ms & -> & S & L & O & C & Kv & -> & Df), D' as (vs' & fs' & k' & ms' & -> & S' & L' & _ & _ & Kv' & [= <-] & Df').
      assert (fs' = fs) by (eapply structFields_det; eauto). subst fs'. apply sh_struct. apply shuffle_nth; [congruence|]. intros i Hi. rewrite L in Hi. destruct (C i Hi) as (f & Hf & Ei).
      eapply (fields_inj t ca _ vs vs' fs U O); [| exact Kv' | exact Df | exact Df' | exact Hf | exact Ei].
      intros i0 d u x A B. split; [eapply Kv; eauto|]. apply IH. cbn [vsize] in Hs. apply nth_error_In in B. assert (X := vsize_in _ _ B). lia.
  Qed.
End Lossless.

(** Two values of a type without the losses listed in [kept] whose encodings
    are the same are the same, up to the order of map entries. *)
Theorem C54_distinct H vcall m m' t w w' v v' opts o out : host_ok H vcall -> shortest_exact (h_shortest H) -> sort_ok H -> esc_on o ->
  call H m t w v opts o -> call H m' t w' v' opts o -> kept H o t v -> kept H o t v' ->
  marshal_returns H m (Some (t, w)) opts (MOk out) -> marshal_returns H m' (Some (t, w')) opts (MOk out) -> shuffle v v'.
Proof.
  intros OK SE SO ON C C' K K' R R'. assert (SH := proj1 SE).
  destruct (C30_json_partial H vcall m t w v opts o out false OK SH SO ON C (kept_sound H vcall o false t _ v K) R) as (j & D & J).
  destruct (C30_json_partial H vcall m' t w' v' opts o out false OK SH SO ON C' (kept_sound H vcall o false t _ v' K') R') as (j' & D' & J').
  assert (B : bytes_ok out) by (apply (proj1 (json_bytes false) j out J)).
  assert (j = j') by (apply (json_text_det false false out j j' B); apply cjson_text; assumption). subst j'.
  apply (doc_one_value H vcall o SE (S (vsize v)) v ltac:(lia) t (is_ptr H t) v' j K K' D D').
Qed.

(** No map inside the value has two entries with one key: so it is for every
    map of Go. *)
Definition unique_keys H o (x : node) : Prop := forall t ca q es, part H o x (t, ca, q, VMap es) -> NoDup (map fst es).

Lemma kept_part H o t ca v y : kept H o t v -> part H o (t, ca, false, v) y -> exists t' ca' v', y = (t', ca', false, v') /\ kept H o t' v'.
Proof.
  intros K Hy. remember (t, ca, false, v) as x eqn:Ex. revert t ca v K Ex. induction Hy as [x|x y z C _ IH]; intros t ca v K ->; [eauto|].
  destruct (kept_child H o _ _ _ _ K C) as (t' & ca' & v' & -> & K'). eapply IH; [exact K' | reflexivity].
Qed.
Lemma utf8_string_bytes s rs : utf8_string s rs -> bytes_ok s.
Proof. induction 1; [constructor|]. apply bytes_ok_app. split; [apply utf8_bytes; assumption | assumption]. Qed.
Lemma kept_distinct H vcall o t ca v : kept H o t v -> unique_keys H o (t, ca, false, v) -> all_distinct H vcall o (t, ca, false, v).
Proof.
  intros K U y Hy. destruct (kept_part _ _ _ _ _ _ K Hy) as (t' & ca' & v' & -> & K'). clear K.
  destruct K'; try (split; [intros ? ? ? [=] | intros ? [=]]; fail).
  eapply C22_string_keys; [eassumption | assumption | | eapply U; exact Hy].
  intros k x Hi. assert (X : exists s rs, k = VStr s /\ utf8_string s rs) by (match goal with F : forall k v, In (k, v) _ -> _ |- _ => exact (proj1 (F k x Hi)) end). destruct X as (s & rs & -> & Hu). exists s, rs. split; [reflexivity|]. split; [eapply utf8_string_bytes; exact Hu | exact Hu].
Qed.

(** With sorted maps, exactly the values that differ by the order of map
    entries have the same encoding. *)
Theorem C54_exact H vcall m m' t w w' v v' opts o out : host_ok H vcall -> shortest_exact (h_shortest H) -> sort_ok H -> insensitive vcall -> esc_on o ->
  has (o_flags o) unsortedMap = false -> call H m t w v opts o -> call H m' t w' v' opts o -> kept H o t v -> kept H o t v' -> unique_keys H o (t, is_ptr H t, false, v) ->
  marshal_returns H m (Some (t, w)) opts (MOk out) -> (marshal_returns H m' (Some (t, w')) opts (MOk out) <-> shuffle v v').
Proof.
  intros OK SE SO IN ON Srt C C' K K' U R. split.
  - intros R'. eapply (C54_distinct H vcall); eassumption.
  - intros S. apply (C22_order_independent H vcall m w m' w' t v v' opts o out); try assumption. apply kept_distinct; assumption.
Qed.

(** ** Concrete cases *)
(** struct{ A int; B *string; C map[string]bool; D []byte; E float64 } *)
Definition ls_fs : list (fdecl * typ) :=
  [fld "A" "" (TInt KInt); fld "B" "" (TPtr TString); fld "C" "" (TMap TString TBool); fld "D" "" (TSlice (TInt KUint8)); fld "E" "" (TFloat true)].
Definition ls_t : typ := TStruct ls_fs.
Definition ls_v (b : val) (es : list (val * val)) : val := VStruct [VInt 1; b; VMap es; VSlice [VInt 1; VInt 255]; VFloat tenth].
Definition ls_es : list (val * val) := [(VStr (lit "k"), VBool true); (VStr (lit "j"), VBool false)].

Lemma ls_bare t : native t = false -> bare flH t.
Proof. intros Hn ca. split; [exact Hn|]. unfold method_of. cbn. destruct ca, (is_ptr flH t); reflexivity. Qed.
Lemma ls_kept b es : b = VNil \/ b = VPtr (VStr (lit "x")) -> es = ls_es \/ es = rev ls_es -> kept flH default_opts ls_t (ls_v b es).
Proof.
  assert (U1 : forall c, 0 <= c < 128 -> utf8_string [c] [c]) by (intros c Hc; assert (X := us_cons c [] []); rewrite utf8_ascii in X by lia; apply X; [left; lia | constructor]).
  intros Hb He.
  assert (S : exists fs, structFields flH 5%nat ls_t = Some fs /\ map (fun f => (f_index f, f_omitNil f || f_omitEmpty f || f_quoted f)) fs = map (fun i => ([i], false)) [0; 1; 2; 3; 4]%nat) by (eexists; split; vm_compute; reflexivity).
  destruct S as (fs & S & Hf). eapply k_struct; [apply ls_bare; reflexivity | reflexivity | exact S | reflexivity | | |].
  - intros f Hi. apply (List.in_map (fun f => (f_index f, f_omitNil f || f_omitEmpty f || f_quoted f))) in Hi. rewrite Hf in Hi. apply List.in_map_iff in Hi. destruct Hi as (i & Ei & _). injection Ei as E1 E2.
    symmetry in E2. apply orb_false_elim in E2. destruct E2 as [E2 E3]. apply orb_false_elim in E2. destruct E2 as [E2 E4]. exists i. repeat split; auto. intros [(d & X & _)|(d & X & _)]; discriminate.
  - intros i Hi. assert (X : In ([i], false) (map (fun i => ([i], false)) [0; 1; 2; 3; 4]%nat)) by (apply (List.in_map (fun i : nat => ([i], false))); do 5 (destruct i as [|i]; [cbn; tauto|]); cbn in Hi; lia).
    rewrite <- Hf in X. apply List.in_map_iff in X. destruct X as (f & Ef & Hin). exists f. split; [exact Hin | congruence].
  - intros i d u v Hd Hv. destruct i as [|[|[|[|[|i]]]]]; [| | | | | destruct i; discriminate]; injection Hd as <- <-; injection Hv as <-.
    + eapply k_int; [apply ls_bare; reflexivity | reflexivity].
    + destruct Hb as [-> | ->]; [eapply k_nil_ptr; first [reflexivity | exact I | apply ls_bare; reflexivity]|]. eapply k_ptr; [apply ls_bare; reflexivity | reflexivity | apply ls_bare; reflexivity | exact I|]. eapply k_str; [apply ls_bare; reflexivity | reflexivity | apply (U1 120); lia].
    + eapply k_map; [apply ls_bare; reflexivity | reflexivity | reflexivity|]. intros k x Hx.
      assert (G : (k, x) = (VStr [107], VBool true) \/ (k, x) = (VStr [106], VBool false)) by (destruct He as [-> | ->]; cbn in Hx; tauto || (destruct Hx as [<- | [<- | []]]; auto)).
      destruct G as [G|G]; injection G as -> ->; (split; [eexists; eexists; split; [reflexivity | apply U1; lia] | eapply k_bool; [apply ls_bare; reflexivity | reflexivity]]).
    + eapply k_bytes; [apply ls_bare; reflexivity | reflexivity | reflexivity | reflexivity | reflexivity].
    + eapply k_float; [apply ls_bare; reflexivity | reflexivity|]. vm_compute. intuition discriminate.
Qed.

Lemma fl_call n t v opts o : call_opts opts = Some o -> callb flH n t v o = true -> call flH (mem_of flH t v) t (word_of flH t v) v opts o.
Proof.
  intros Ho Hb. apply andb_prop in Hb. destruct Hb as [Hb H3]. apply andb_prop in Hb. destruct Hb as [H1 H2]. eapply call_check; eauto. apply declb_ok.
Qed.
Lemma ls_callb b es : b = VNil \/ b = VPtr (VStr (lit "x")) -> es = ls_es \/ es = rev ls_es -> callb flH 10 ls_t (ls_v b es) default_opts = true.
Proof. intros [-> | ->] [-> | ->]; vm_compute; reflexivity. Qed.
Lemma ls_call b es : b = VNil \/ b = VPtr (VStr (lit "x")) -> es = ls_es \/ es = rev ls_es -> call flH (mem_of flH ls_t (ls_v b es)) ls_t (word_of flH ls_t (ls_v b es)) (ls_v b es) [] default_opts.
Proof. intros Hb He. apply (fl_call 10); [reflexivity | apply ls_callb; assumption]. Qed.

(** A set of values with everything inside them has the values of all parts. *)
Definition closed (P : val -> Prop) : Prop := forall v, P v ->
  match v with
  | VPtr x | VIface _ x => P x
  | VSlice vs | VArr vs | VStruct vs => forall x, In x vs -> P x
  | VMap es | VSync es => forall k x, In (k, x) es -> P k /\ P x
  | _ => True
  end.
Lemma closed_get (P : val -> Prop) : closed P -> forall p v x, P v -> vget p v = Some (Some x) -> P x.
Proof.
  intros Hc. induction p as [|i p IH]; intros v x Hv; cbn [vget]; [congruence|]. destruct v; try discriminate. destruct (nth_error vs i) as [y|] eqn:Ey; [|discriminate]. intros G.
  assert (Py : P y) by (apply (Hc _ Hv); eapply nth_error_In; eassumption). destruct p as [|j p]; [congruence|].
  destruct y; try discriminate; try (eapply IH; [|exact G]; assumption). eapply IH; [|exact G]. exact (Hc _ Py).
Qed.
Lemma closed_part (P : val -> Prop) H o : closed P -> forall x y, part H o x y -> P (snd x) -> P (snd y).
Proof.
  intros Hc. induction 1 as [|x y z C _ IH]; [auto|]. intros Px. apply IH. clear IH.
  destruct C; cbn [snd] in *; try (assert (G := Hc _ Px); cbn beta iota in G; first [exact G | eapply G; eassumption]; fail).
  - assert (G := Hc _ Px). cbn beta iota in G. eapply proj1, G. eassumption.
  - match goal with Sh : shown _ _ _ _ _ _ _ |- _ => destruct Sh as (_ & (V1 & _) & _) end. eapply closed_get; eassumption.
  - assert (G := Hc _ Px). cbn beta iota in G. apply (Hc (VIface kt k)). eapply proj1, G. eassumption.
  - assert (G := Hc _ Px). cbn beta iota in G. apply (Hc (VIface vt v)). eapply proj2, G. eassumption.
Qed.
Lemma ls_unique b : b = VNil \/ b = VPtr (VStr (lit "x")) -> unique_keys flH default_opts (ls_t, is_ptr flH ls_t, false, ls_v b ls_es).
Proof.
  intros Hb t ca q es Hp.
  set (L := [ls_v b ls_es; VInt 1; b; VStr (lit "x"); VMap ls_es; VStr (lit "k"); VStr (lit "j"); VBool true; VBool false; VSlice [VInt 1; VInt 255]; VInt 255; VFloat tenth]).
  assert (C : closed (fun v => In v L)).
  { intros v Hv. unfold L in Hv. repeat match type of Hv with In _ (_ :: _) => destruct Hv as [<-|Hv] end; [..| destruct Hv]; try exact I.
    - intros x Hx. cbn in Hx |- *. intuition.
    - destruct Hb as [-> | ->]; cbn; auto 12.
    - intros k x Hx. destruct Hx as [Hx|[Hx|[]]]; injection Hx as <- <-; cbn; auto 20.
    - intros x Hx. cbn in Hx |- *. intuition. }
  assert (G := closed_part _ _ _ C _ _ Hp (or_introl eq_refl)). cbn [snd] in G. unfold L in G.
  assert (es = ls_es); [|subst es; repeat constructor; cbn; intuition discriminate].
  repeat match type of G with In _ (_ :: _) => destruct G as [G|G] end; try discriminate G; [destruct Hb; subst b; discriminate | congruence | destruct G].
Qed.
(** The member B tells the two values apart, whatever the order of the map. *)
Example C54_example out es es' : es = ls_es \/ es = rev ls_es -> es' = ls_es \/ es' = rev ls_es ->
  marshal_returns flH (mem_of flH ls_t (ls_v VNil es)) (Some (ls_t, word_of flH ls_t (ls_v VNil es))) [] (MOk out) ->
  ~ marshal_returns flH (mem_of flH ls_t (ls_v (VPtr (VStr (lit "x"))) es')) (Some (ls_t, word_of flH ls_t (ls_v (VPtr (VStr (lit "x"))) es'))) [] (MOk out).
Proof.
  intros He He' R R'.
  assert (S : shuffle (ls_v VNil es) (ls_v (VPtr (VStr (lit "x"))) es')).
  { eapply (C54_distinct flH fl_vcall) with (o := default_opts) (out := out); [exact fl_ok | exact shortest_dec_exact | exact (constH_sort [] (fun _ _ => false) (fun _ _ _ => inl l_null)) | split; reflexivity | apply ls_call; auto | apply ls_call; auto | apply ls_kept; auto | apply ls_kept; auto | exact R | exact R']. }
  inversion S as [| | | | |? ? F| |]; subst. inversion F as [|? ? ? ? _ F1]; subst. inversion F1 as [|? ? ? ? X _]; subst. inversion X.
Qed.
Example C54_example_output : marshal_returns flH (mem_of flH ls_t (ls_v VNil ls_es)) (Some (ls_t, word_of flH ls_t (ls_v VNil ls_es))) []
  (MOk (lit "{""A"":1,""B"":null,""C"":{""j"":false,""k"":true},""D"":""Af8="",""E"":-0.1}")).
Proof. exists 12%nat; split; [vm_compute; reflexivity | discriminate]. Qed.

(** The order of the map makes no difference; a change of B does. *)
Example C54_example_exact b : b = VNil \/ b = VPtr (VStr (lit "x")) ->
  (marshal_returns flH (mem_of flH ls_t (ls_v b (rev ls_es))) (Some (ls_t, word_of flH ls_t (ls_v b (rev ls_es)))) []
    (MOk (lit "{""A"":1,""B"":null,""C"":{""j"":false,""k"":true},""D"":""Af8="",""E"":-0.1}")) <-> b = VNil).
Proof.
  intros Hb. rewrite (C54_exact flH fl_vcall (mem_of flH ls_t (ls_v VNil ls_es)) _ ls_t (word_of flH ls_t (ls_v VNil ls_es)) _ (ls_v VNil ls_es) (ls_v b (rev ls_es)) [] default_opts);
    [| exact fl_ok | exact shortest_dec_exact | exact (constH_sort [] (fun _ _ => false) (fun _ _ _ => inl l_null)) | intros ? ? ? ? ? _; reflexivity | split; reflexivity | reflexivity
     | apply ls_call; auto | apply ls_call; auto | apply ls_kept; auto | apply ls_kept; auto | apply ls_unique; auto | exact C54_example_output].
  split.
  - intros S. inversion S as [| | | | |? ? F| |]; subst. inversion F as [|? ? ? ? _ F1]; subst. inversion F1 as [|? ? ? ? X _]; subst. inversion X; reflexivity.
  - intros ->. apply sh_struct. repeat (constructor; [try apply sh_refl|]); [|constructor]. apply (sh_map _ (rev ls_es)); [apply Permutation_rev|]. apply Forall2_refl. intros e. split; apply sh_refl.
Qed.

Print Assumptions C54_distinct.
Print Assumptions C54_exact.
