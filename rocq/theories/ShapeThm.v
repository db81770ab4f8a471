(** The bytes of a value are put together from the bytes of its parts. *)
From Coq Require Import Permutation Sorted.
From Verif Require Import Base Utf8 JsonSpec OptionsModel EscapeModel TypesModel TypesFacts TagsModel LeafModel MemModel FieldsModel FieldsProof InstrModel ExecModel ValueModel
  ExecMono ExecProof VencFacts MarshalThm DocSpec EntriesFacts PartFacts DocProof SafeProof ApiFacts PartsThm.

Lemma infix_refl b : infix b b.
Proof. exists [], []. rewrite app_nil_r. reflexivity. Qed.
Lemma infix_trans a b c : infix a b -> infix b c -> infix a c.
Proof. intros (l & r & ->) (l' & r' & ->). exists (l' ++ l), (r ++ r'). rewrite <- !app_assoc. reflexivity. Qed.
Lemma infix_app_l a b c : infix a b -> infix a (c ++ b).
Proof. intros (l & r & ->). exists (c ++ l), r. rewrite <- app_assoc. reflexivity. Qed.
Lemma infix_app_r a b c : infix a b -> infix a (b ++ c).
Proof. intros (l & r & ->). exists l, (r ++ c). rewrite <- !app_assoc. reflexivity. Qed.
Lemma infix_cons a b c : infix a b -> infix a (c :: b).
Proof. apply (infix_app_l a b [c]). Qed.

Definition ends_null (b : bytes) : Prop := exists p, b = p ++ l_null.

Lemma tail_null_spec b : tail_null b = true <-> ends_null b.
Proof.
  unfold tail_null, ends_null. split.
  - rewrite andb_true_iff, bytes_eqb_eq. intros [L E]. exists (firstn (length b - 4) b). rewrite <- E. symmetry. apply firstn_skipn.
  - intros (p & ->). rewrite app_length. change (length l_null) with 4%nat. replace (length p + 4 - 4)%nat with (length p) by lia.
    rewrite skipn_app, skipn_all, Nat.sub_diag. cbn [skipn app]. rewrite bytes_eqb_refl, andb_true_r. apply Nat.leb_le. lia.
Qed.

Section Shape.
  Variable H : host.
  Variable vcall : mkind -> typ -> val -> option Z -> bytes + Z.
  Hypothesis OK : host_ok H vcall.
  Variable o : encOpts.
  Notation E := (h_env H).
  Notation opt := (has (o_flags o)).
  Notation tok := (typ_ok (h_letter H) (h_udigit H)).

  (** The bytes of a part. *)
  Definition bytes_of (x : node) (b : bytes) : Prop := let '(t, ca, q, v) := x in exists n, venc H vcall o n t ca q v = VRet b None.

  Lemma bytes_of_det x b b' : bytes_of x b -> bytes_of x b' -> b = b'.
  Proof.
    destruct x as [[[t ca] q] v]. intros [n Hn] [k Hk].
    assert (A := venc_mono H vcall o n (Nat.max n k) t ca q v ltac:(lia) ltac:(rewrite Hn; discriminate)).
    assert (B := venc_mono H vcall o k (Nat.max n k) t ca q v ltac:(lia) ltac:(rewrite Hk; discriminate)). congruence.
  Qed.

  Lemma bytes_of_gives x : gives_bytes H vcall o x <-> exists b, bytes_of x b.
  Proof. destruct x as [[[t ca] q] v]. split; intros (n & b & Hn); exists b, n; exact Hn. Qed.

  Lemma encodes_bytes t v out : encodes H vcall o t v out None -> bytes_of (t, is_ptr H t, false, v) out.
  Proof. apply encodes_inv. Qed.

  (** ** Arrays and slices *)
  Lemma elems_bytes n e ca vs out : velems (venc H vcall o n) e ca vs true [] = VRet out None ->
    exists bs, Forall2 (fun v b => bytes_of (e, ca, false, v) b) vs bs /\ out = join_elems true bs.
  Proof.
    intros Hr. apply velems_ret in Hr. destruct Hr as (bs & Hf & ->). exists bs. split; [|reflexivity].
    clear - Hf. induction Hf as [|v b vs bs Hb _ IH]; constructor; [exists n; exact Hb | exact IH].
  Qed.

  Theorem slice_bytes t ca q e vs out : DocSpec.plain H t ca -> under E t = TSlice e -> byte_elem H e = false -> bytes_of (t, ca, q, VSlice vs) out ->
    exists bs, Forall2 (fun v b => bytes_of (e, true, false, v) b) vs bs /\ out = join_elems true bs.
  Proof.
    intros [P1 P2] U B [n Hn]. destruct n as [|n]; [discriminate|]. cbn [venc] in Hn. rewrite P1, P2 in Hn. unfold vkind in Hn. rewrite U, B in Hn.
    eapply elems_bytes; eauto.
  Qed.

  Theorem array_bytes t ca q k e vs out : DocSpec.plain H t ca -> under E t = TArray k e -> byte_elem H e && opt byteArrayAsString = false ->
    bytes_of (t, ca, q, VArr vs) out -> exists bs, Forall2 (fun v b => bytes_of (e, ca, false, v) b) vs bs /\ out = join_elems true bs.
  Proof.
    intros [P1 P2] U B [n Hn]. destruct n as [|n]; [discriminate|]. cbn [venc] in Hn. rewrite P1, P2 in Hn. unfold vkind in Hn. rewrite U, B in Hn.
    eapply elems_bytes; eauto.
  Qed.

  Theorem pointer_bytes t ca q e v out : DocSpec.plain H t ca -> under E t = TPtr e -> bytes_of (t, ca, q, VPtr v) out -> bytes_of (e, true, q, v) out.
  Proof.
    intros [P1 P2] U [n Hn]. destruct n as [|n]; [discriminate|]. cbn [venc] in Hn. rewrite P1, P2 in Hn. unfold vkind in Hn. rewrite U in Hn. exists n. exact Hn.
  Qed.

  Theorem iface_bytes t ca q ms td v out : DocSpec.plain H t ca -> under E t = TIface ms -> bytes_of (t, ca, q, VIface td v) out -> bytes_of (td, is_ptr H td, false, v) out.
  Proof.
    intros [P1 P2] U [n Hn]. destruct n as [|n]; [discriminate|]. cbn [venc] in Hn. rewrite P1, P2 in Hn. unfold vkind in Hn. rewrite U in Hn.
    destruct ms; [discriminate|]. apply vany_ret in Hn. exists n. exact Hn.
  Qed.

  (** ** Maps *)
  (** The bytes of a map key. *)
  Definition key_bytes (kt : typ) (ca : bool) (k : val) (kb : bytes) : Prop :=
    (isString E kt = true /\ exists s, k = VStr s /\ kb = encode_string [] s o) \/
    (isString E kt = false /\ ca = false /\ h_impl H kt MText = true /\ is_ptr H kt = true /\ k = VNil /\ kb = [34; 34]) \/
    (isString E kt = false /\ (ca = false -> h_impl H kt MText && is_ptr H kt && vnil k = false) /\ (exists b, bytes_of (kt, ca, false, k) b /\ kb = if h_impl H kt MText then b else 34 :: b ++ [34])).

  Definition entry_bytes (kt et : typ) (e : val * val) (kv : member) : Prop :=
    key_bytes kt false (fst e) (fst kv) /\ bytes_of (et, false, false, snd e) (snd kv).

  Definition map_text (kvs : list member) (out : bytes) : Prop :=
    exists kvs', Permutation kvs kvs' /\ out = 123 :: join_members kvs' ++ [125] /\
      (if opt unsortedMap then kvs' = kvs
       else StronglySorted (fun a b => key_le (sort_key (fst a)) (sort_key (fst b))) kvs').

  Lemma vquote_if_none q r b : vquote_if q r = VRet b None -> exists b', r = VRet b' None /\ b = if q then 34 :: b' ++ [34] else b'.
  Proof.
    destruct q; cbn [vquote_if]; [|eauto]. destruct r as [b' [e|]| |]; cbn [vquote]; try discriminate. intros [= <-]. exists b'. split; reflexivity.
  Qed.

  Hypothesis SO : sort_ok H.

  Lemma ventries_text es out : ventries H o es = VRet out None -> exists kvs, Forall2 gives es kvs /\ map_text kvs out.
  Proof.
    intros Hr. destruct (ventries_ret H o es out SO Hr) as (kvs & kvs' & A & B & C & D). exists kvs. split; [exact A|]. exists kvs'. split; [exact B|]. split; [exact C|].
    destruct (opt unsortedMap); [exact D | apply D].
  Qed.

  Lemma gives_map {A} (f : A -> vres * vres) (R : A -> member -> Prop) es : (forall a kv, gives (f a) kv -> R a kv) ->
    forall kvs, Forall2 gives (map f es) kvs -> Forall2 R es kvs.
  Proof.
    intros HR. induction es as [|a es IH]; intros kvs Hf; cbn [map] in Hf; inversion Hf; subst; constructor; auto.
  Qed.

  Theorem map_bytes t ca q kt et es out : DocSpec.plain H t ca -> under E t = TMap kt et -> key_ok H kt = true ->
    bytes_of (t, ca, q, VMap es) out -> exists kvs, Forall2 (entry_bytes kt et) es kvs /\ map_text kvs out.
  Proof.
    intros [P1 P2] U K [n Hn]. destruct n as [|n]; [discriminate|]. cbn [venc] in Hn. rewrite P1, P2 in Hn. unfold vkind in Hn. rewrite U, K in Hn. cbn [negb] in Hn.
    destruct es as [|e es].
    - injection Hn as <-. exists []. split; [constructor|]. exists []. split; [constructor|]. split; [reflexivity|]. destruct (opt unsortedMap); [reflexivity | constructor].
    - apply ventries_text in Hn. destruct Hn as (kvs & Hf & Ht). exists kvs. split; [|exact Ht]. revert Hf. apply gives_map.
      intros [k v] [kb vb] [Hk Hv]. cbn [fst snd] in *. split; cbn [fst snd]; [|exists n; exact Hv]. unfold vkey in Hk.
      destruct (isString E kt) eqn:Es.
      + destruct k; try discriminate. injection Hk as <-. left. split; [exact Es | eauto].
      + destruct (h_impl H kt MText && is_ptr H kt && vnil k) eqn:En.
        * injection Hk as <-. apply andb_true_iff in En. destruct En as [En1 En2]. apply andb_true_iff in En1. destruct k; try discriminate. right. left. intuition.
        * apply vquote_if_none in Hk. destruct Hk as (b & Hb & ->). right. right. split; [exact Es|]. split; [intros _; exact En|]. exists b. split; [exists n; exact Hb|]. destruct (h_impl H kt MText); reflexivity.
  Qed.

  Definition sync_entry_bytes (e : val * val) (kv : member) : Prop :=
    exists kt k vt v, e = (VIface kt k, VIface vt v) /\ key_bytes kt (is_ptr H kt) k (fst kv) /\ bytes_of (vt, is_ptr H vt, false, v) (snd kv).

  Theorem sync_bytes ca q es out : bytes_of (TSyncMap, ca, q, VSync es) out -> exists kvs, Forall2 sync_entry_bytes es kvs /\ map_text kvs out.
  Proof.
    intros [n Hn]. destruct n as [|n]; [discriminate|]. cbn [venc native vnative] in Hn. apply ventries_text in Hn. destruct Hn as (kvs & Hf & Ht).
    exists kvs. split; [|exact Ht]. revert Hf. apply gives_map. intros [k v] [kb vb] [Hk Hv]. cbn [fst snd] in *.
    destruct v; try discriminate. cbn [vsync_val] in Hv. apply vany_ret in Hv.
    destruct k; try discriminate. cbn [vsync_key] in Hk. destruct (isString E t0) eqn:Es; cbn [negb andb] in Hk.
    - destruct k; try discriminate. injection Hk as <-. do 4 eexists. split; [reflexivity|]. split; [left; split; [exact Es | eauto] | exists n; exact Hv].
    - destruct (negb (isInteger E t0) && negb (h_impl H t0 MText)); [discriminate|]. apply vquote_if_none in Hk. destruct Hk as (b & Hb & ->). apply vany_ret in Hb.
      do 4 eexists. split; [reflexivity|]. split; [|exists n; exact Hv]. right. right. split; [exact Es|]. split; [intros ->; rewrite andb_false_r; reflexivity|]. exists b. split; [exists n; exact Hb|]. destruct (h_impl H t0 MText); reflexivity.
  Qed.

  (** ** Structs *)
  (** The fields that are not hidden, in order, with the bytes of their values;
      [None] when the bytes are a null that omitnil drops. *)
  Inductive shown_bytes (t : typ) (ca : bool) (v : val) : list field -> list (field * option bytes) -> Prop :=
  | sb_nil : shown_bytes t ca v [] []
  | sb_hidden f fs l : hidden H o t v f -> shown_bytes t ca v fs l -> shown_bytes t ca v (f :: fs) l
  | sb_null f ft x b fs l : shown H o t v f ft x -> bytes_of (ft, ca, quoted H f ft, x) b -> drops_null H f ft -> ends_null b ->
      shown_bytes t ca v fs l -> shown_bytes t ca v (f :: fs) ((f, None) :: l)
  | sb_show f ft x b fs l : shown H o t v f ft x -> bytes_of (ft, ca, quoted H f ft, x) b -> ~ (drops_null H f ft /\ ends_null b) ->
      shown_bytes t ca v fs l -> shown_bytes t ca v (f :: fs) ((f, Some b) :: l).

  Definition tail_text (mb : field * option bytes) : bytes :=
    match mb with (f, Some b) => 44 :: key_text o (f_name f) ++ b | (_, None) => [] end.

  Definition object_text (l : list (field * option bytes)) : bytes :=
    match l with
    | [] => [123; 125]
    | (f, b) :: l' => 123 :: (match b with Some b => key_text o (f_name f) ++ b | None => [] end) ++ concat (map tail_text l') ++ [125]
    end.

  Lemma vfields_bytes n t ca v fs : forall first out0 out, vfields H o (venc H vcall o n) t ca v fs first out0 = VRet out None ->
    exists l, shown_bytes t ca v fs l /\ out = out0 ++ (if first then object_text l else concat (map tail_text l) ++ [125]).
  Proof.
    induction fs as [|f fs IH]; intros first out0 out Hr; cbn [vfields] in Hr.
    - exists []. split; [constructor|]. destruct first; injection Hr as <-; reflexivity.
    - assert (Hid : hidden H o t v f -> vfields H o (venc H vcall o n) t ca v fs first out0 = VRet out None ->
        exists l, shown_bytes t ca v (f :: fs) l /\ out = out0 ++ (if first then object_text l else concat (map tail_text l) ++ [125])).
      { intros Hh Hx. destruct (IH _ _ _ Hx) as (l & A & B). exists l. split; [apply sb_hidden; assumption | exact B]. }
      destruct (isDeniedField o (f_name f)) eqn:Ed; [apply Hid; [left; apply isDeniedField_spec; exact Ed | exact Hr]|].
      destruct (negb (right_seq H t f)); [discriminate|].
      destruct (vget (f_index f) v) as [[x|]|] eqn:Ev; [|apply Hid; [right; left; exact Ev | exact Hr] | discriminate].
      destruct (type_by_index H t (f_index f)) as [ft|] eqn:Et; [|discriminate].
      destruct (f_omitNil f && vnil x) eqn:En.
      { apply Hid; [|exact Hr]. right. right. exists ft, x. split; [split; assumption|]. apply dropped_spec. rewrite En. reflexivity. }
      destruct (f_omitEmpty f && vempty x) eqn:Ee.
      { apply Hid; [|exact Hr]. right. right. exists ft, x. split; [split; assumption|]. apply dropped_spec. rewrite Ee. apply orb_true_r. }
      assert (Sh : shown H o t v f ft x).
      { split; [rewrite <- isDeniedField_spec; congruence|]. split; [split; assumption|]. rewrite <- dropped_spec, En, Ee. discriminate. }
      cbn zeta in Hr. fold (quoted H f ft) in Hr. destruct (venc H vcall o n ft ca (quoted H f ft) x) as [b [e|]| |] eqn:Er; try discriminate.
      assert (Hb : bytes_of (ft, ca, quoted H f ft, x) b) by (exists n; exact Er).
      destruct (IH _ _ _ Hr) as (l & A & B).
      assert (Hd : f_omitNil f && (h_impl H ft MJson || h_impl H (TPtr ft) MJson) && tail_null b = true <-> drops_null H f ft /\ ends_null b).
      { rewrite !andb_true_iff, orb_true_iff, tail_null_spec. reflexivity. }
      destruct (f_omitNil f && (h_impl H ft MJson || h_impl H (TPtr ft) MJson) && tail_null b).
      + destruct (proj1 Hd eq_refl) as [D1 D2]. exists ((f, None) :: l). split; [eapply sb_null; eauto|]. rewrite B. destruct first; cbn [object_text map concat tail_text app]; rewrite <- ?app_assoc; reflexivity.
      + exists ((f, Some b) :: l). split; [eapply sb_show; eauto; rewrite <- Hd; discriminate|]. rewrite B. destruct first; cbn [object_text map concat tail_text app]; rewrite <- ?app_assoc; cbn [app]; rewrite <- ?app_assoc; reflexivity.
  Qed.

  Theorem struct_bytes t ca q fs0 vs out : tok t -> DocSpec.plain H t ca -> under E t = TStruct fs0 -> bytes_of (t, ca, q, VStruct vs) out ->
    exists k fs l, structFields H k t = Some fs /\ shown_bytes t ca (VStruct vs) fs l /\ out = object_text l.
  Proof.
    intros Ht [P1 P2] U [n Hn]. destruct n as [|n]; [discriminate|]. cbn [venc] in Hn. rewrite P1, P2 in Hn. unfold vkind in Hn. rewrite U in Hn.
    unfold vstruct in Hn. destruct (fields_of H t) as [|fd0 fds0] eqn:Ef.
    - injection Hn as <-. destruct (ok_fields _ _ OK t Ht) as (k & fs & Hk). assert (fs = []) by (eapply no_fields; eauto). subst fs.
      exists k, [], []. split; [exact Hk|]. split; [constructor | reflexivity].
    - destruct (structFields H n t) as [fs|] eqn:Es; [|discriminate]. apply vfields_bytes in Hn. destruct Hn as (l & A & B). exists n, fs, l. auto.
  Qed.

  Lemma structFields_det t k fs k' fs' : structFields H k t = Some fs -> structFields H k' t = Some fs' -> fs = fs'.
  Proof. intros A B. assert (A' := structFields_mono H k (Nat.max k k') t fs A ltac:(lia)). assert (B' := structFields_mono H k' (Nat.max k k') t fs' B ltac:(lia)). congruence. Qed.

  (** Which fields have a member. *)
  Lemma shown_bytes_in t ca v fs l : shown_bytes t ca v fs l -> forall f b, In (f, b) l -> In f fs /\ exists ft x b', shown H o t v f ft x /\ bytes_of (ft, ca, quoted H f ft, x) b' /\
    (b = Some b' /\ ~ (drops_null H f ft /\ ends_null b') \/ b = None /\ drops_null H f ft /\ ends_null b').
  Proof.
    induction 1 as [|f fs l Hh _ IH|f ft x b fs l Hs Hb Hd He _ IH|f ft x b fs l Hs Hb Hd _ IH]; intros f0 b0 Hi.
    - destruct Hi.
    - destruct (IH _ _ Hi) as [A B]. split; [right; exact A | exact B].
    - destruct Hi as [Hi|Hi]; [|destruct (IH _ _ Hi) as [A B]; split; [right; exact A | exact B]]. injection Hi as <- <-.
      split; [left; reflexivity|]. exists ft, x, b. auto 10.
    - destruct Hi as [Hi|Hi]; [|destruct (IH _ _ Hi) as [A B]; split; [right; exact A | exact B]]. injection Hi as <- <-.
      split; [left; reflexivity|]. exists ft, x, b. auto 10.
  Qed.

  Lemma shown_not_hidden t v f ft x : shown H o t v f ft x -> ~ hidden H o t v f.
  Proof.
    intros (A & (B1 & B2) & C) [D|[D|(ft' & x' & (D1 & D2) & D3)]]; [tauto | congruence|]. apply C. congruence.
  Qed.

  Lemma shown_det t v f ft x ft' x' : shown H o t v f ft x -> shown H o t v f ft' x' -> ft = ft' /\ x = x'.
  Proof. intros (_ & (B1 & B2) & _) (_ & (C1 & C2) & _). split; congruence. Qed.

  Lemma shown_bytes_all t ca v fs l : shown_bytes t ca v fs l -> forall f ft x, In f fs -> shown H o t v f ft x -> exists b, In (f, b) l.
  Proof.
    induction 1 as [|f fs l Hh _ IH|f ft x b fs l Hs Hb Hd He _ IH|f ft x b fs l Hs Hb Hd _ IH]; intros f0 ft0 x0 Hi Hx.
    - destruct Hi.
    - destruct Hi as [->|Hi]; [exfalso; eapply shown_not_hidden; eauto | eauto].
    - destruct Hi as [->|Hi]; [eexists; left; reflexivity|]. destruct (IH _ _ _ Hi Hx) as [b' A]. exists b'. right. exact A.
    - destruct Hi as [->|Hi]; [eexists; left; reflexivity|]. destruct (IH _ _ _ Hi Hx) as [b' A]. exists b'. right. exact A.
  Qed.

  (** The object is well formed unless the first member is dropped. *)
  Definition kept (l : list (field * option bytes)) : list (field * bytes) :=
    flat_map (fun mb => match mb with (f, Some b) => [(f, b)] | _ => [] end) l.

  Definition field_text (mb : field * bytes) : bytes := key_text o (f_name (fst mb)) ++ snd mb.

  Fixpoint commas (bs : list bytes) : bytes :=
    match bs with [] => [] | [b] => b | b :: bs' => b ++ 44 :: commas bs' end.

  Lemma tail_commas l : concat (map tail_text l) = concat (map (fun b => 44 :: b) (map field_text (kept l))).
  Proof.
    induction l as [|[f [b|]] l IH]; [reflexivity | |]; cbn [map concat kept flat_map tail_text app]; fold (kept l); rewrite IH; reflexivity.
  Qed.

  Lemma commas_concat b bs : commas (b :: bs) = b ++ concat (map (fun b => 44 :: b) bs).
  Proof. revert b. induction bs as [|b' bs IH]; intros b; [cbn; rewrite app_nil_r; reflexivity|]. cbn [map concat]. rewrite <- app_comm_cons, <- IH. reflexivity. Qed.

  Theorem object_kept l : (forall f l', l <> (f, None) :: l') -> object_text l = 123 :: commas (map field_text (kept l)) ++ [125].
  Proof.
    intros Hl. destruct l as [|[f [b|]] l]; [reflexivity | | destruct (Hl f l eq_refl)]. cbn [object_text kept flat_map app map]. fold (kept l).
    rewrite commas_concat, tail_commas. unfold field_text at 2. cbn [fst snd]. rewrite <- !app_assoc. reflexivity.
  Qed.

  Lemma object_infix l f b : In (f, Some b) l -> infix (field_text (f, b)) (object_text l).
  Proof.
    intros Hi. destruct l as [|[f0 b0] l]; [destruct Hi|]. cbn [object_text]. apply infix_cons. destruct Hi as [Hi|Hi].
    - injection Hi as -> ->. apply infix_app_r, infix_refl.
    - apply infix_app_l, infix_app_r. clear f0 b0. induction l as [|mb l IH]; [destruct Hi|]. cbn [map concat]. destruct Hi as [->|Hi].
      + apply infix_app_r, infix_cons, infix_refl.
      + apply infix_app_l, IH, Hi.
  Qed.

  (** ** Parts whose bytes are a piece of the bytes of the whole: all but map
      keys and fields omitnil may drop *)
  Inductive inner_child : node -> node -> Prop :=
  | ic_ptr t ca q e v : DocSpec.plain H t ca -> under E t = TPtr e -> inner_child (t, ca, q, VPtr v) (e, true, q, v)
  | ic_iface t ca q td v : DocSpec.plain H t ca -> under E t = TIface None -> inner_child (t, ca, q, VIface td v) (td, is_ptr H td, false, v)
  | ic_slice t ca q e vs v : DocSpec.plain H t ca -> under E t = TSlice e -> byte_elem H e = false -> In v vs -> inner_child (t, ca, q, VSlice vs) (e, true, false, v)
  | ic_array t ca q n e vs v : DocSpec.plain H t ca -> under E t = TArray n e -> byte_elem H e && opt byteArrayAsString = false -> In v vs ->
      inner_child (t, ca, q, VArr vs) (e, ca, false, v)
  | ic_elem t ca q kt et es k v : DocSpec.plain H t ca -> under E t = TMap kt et -> key_ok H kt = true -> In (k, v) es -> inner_child (t, ca, q, VMap es) (et, false, false, v)
  | ic_field t ca q fs0 n fs vs f ft x : DocSpec.plain H t ca -> under E t = TStruct fs0 -> structFields H n t = Some fs -> In f fs ->
      shown H o t (VStruct vs) f ft x -> ~ drops_null H f ft -> inner_child (t, ca, q, VStruct vs) (ft, ca, quoted H f ft, x)
  | ic_sval ca q es k vt v : In (k, VIface vt v) es -> inner_child (TSyncMap, ca, q, VSync es) (vt, is_ptr H vt, false, v).

  Inductive inner : node -> node -> Prop :=
  | inner_refl x : inner x x
  | inner_step x y z : inner_child x y -> inner y z -> inner x z.

  Lemma inner_child_child x y : inner_child x y -> child H o x y.
  Proof.
    intros Hc. destruct Hc; [eapply ch_ptr | eapply ch_iface | eapply ch_slice | eapply ch_array | eapply ch_elem | eapply ch_field | eapply ch_sval]; eauto.
  Qed.

  Lemma inner_part x y : inner x y -> part H o x y.
  Proof. induction 1; [constructor | eapply part_step; eauto using inner_child_child]. Qed.

  Lemma elems_infix bs : forall first b, In b bs -> infix b (join_elems first bs).
  Proof.
    induction bs as [|b0 bs IH]; intros first b Hi; [destruct Hi|]. cbn [join_elems]. apply infix_cons. destruct Hi as [->|Hi]; [apply infix_app_r, infix_refl|].
    apply infix_app_l, IH, Hi.
  Qed.

  Lemma members_infix kvs : forall kv, In kv kvs -> infix (member_text kv) (join_members kvs).
  Proof.
    induction kvs as [|kv0 kvs IH]; intros kv Hi; [destruct Hi|]. rewrite join_members_cons. destruct Hi as [->|Hi]; [apply infix_app_r, infix_refl|].
    apply infix_app_l. unfold tail_members. destruct kvs; [destruct Hi|]. apply infix_cons, IH, Hi.
  Qed.

  Lemma map_text_infix kvs out kv : map_text kvs out -> In kv kvs -> infix (member_text kv) out.
  Proof.
    intros (kvs' & Hp & -> & _) Hi. apply infix_cons, infix_app_r, members_infix. eapply Permutation_in; eauto.
  Qed.

  Lemma forall2_pick {A B} (R : A -> B -> Prop) l l' : Forall2 R l l' -> forall x, In x l -> exists y, In y l' /\ R x y.
  Proof.
    induction 1 as [|a b l l' Hr _ IH]; intros x Hi; [destruct Hi|]. destruct Hi as [->|Hi]; [exists b; split; [left; reflexivity | exact Hr]|].
    destruct (IH x Hi) as (y & A1 & A2). exists y. split; [right; exact A1 | exact A2].
  Qed.

  Lemma value_infix kv : infix (snd kv) (member_text kv).
  Proof. unfold member_text. apply infix_app_l, infix_cons, infix_refl. Qed.

  Variable m : mem.
  Lemma inner_child_infix x y out : held H m x -> inner_child x y -> bytes_of x out -> exists b, bytes_of y b /\ infix b out.
  Proof.
    intros Hh Hc Hb. destruct Hc as [t ca q e v P U|t ca q td v P U|t ca q e vs v P U B I|t ca q n e vs v P U B I|t ca q kt et es k v P U K I
      |t ca q fs0 n fs vs f ft x P U S I W D|ca q es k vt v I].
    - exists out. split; [eapply pointer_bytes; eauto | apply infix_refl].
    - exists out. split; [eapply iface_bytes; eauto | apply infix_refl].
    - destruct (slice_bytes _ _ _ _ _ _ P U B Hb) as (bs & Hf & ->). destruct (forall2_pick _ _ _ Hf _ I) as (b & A1 & A2). exists b. split; [exact A2 | apply elems_infix, A1].
    - destruct (array_bytes _ _ _ _ _ _ _ P U B Hb) as (bs & Hf & ->). destruct (forall2_pick _ _ _ Hf _ I) as (b & A1 & A2). exists b. split; [exact A2 | apply elems_infix, A1].
    - destruct (map_bytes _ _ _ _ _ _ _ P U K Hb) as (kvs & Hf & Ht). destruct (forall2_pick _ _ _ Hf _ I) as ([kb vb] & A1 & _ & A2). cbn [fst snd] in A2.
      exists vb. split; [exact A2|]. eapply infix_trans; [apply (value_infix (kb, vb)) | eapply map_text_infix; eauto].
    - destruct Hh as [Ht _]. destruct (struct_bytes _ _ _ _ _ _ Ht P U Hb) as (k & fs' & l & S' & Hl & ->).
      assert (fs' = fs) by (eapply structFields_det; eauto). subst fs'. destruct (shown_bytes_all _ _ _ _ _ Hl _ _ _ I W) as [b Hi].
      destruct (shown_bytes_in _ _ _ _ _ Hl _ _ Hi) as (_ & ft' & x' & b' & W' & Hb' & C). destruct (shown_det _ _ _ _ _ _ _ W W') as [<- <-].
      destruct C as [[-> _]|(_ & D' & _)]; [|contradiction]. exists b'. split; [exact Hb'|].
      eapply infix_trans; [|apply object_infix; exact Hi]. unfold field_text. apply infix_app_l, infix_refl.
    - destruct (sync_bytes _ _ _ _ Hb) as (kvs & Hf & Ht). destruct (forall2_pick _ _ _ Hf _ I) as ([kb vb] & A1 & kt & k' & vt' & v' & Ee & _ & A2). injection Ee as -> -> ->. cbn [snd] in A2.
      exists vb. split; [exact A2|]. eapply infix_trans; [apply (value_infix (kb, vb)) | eapply map_text_infix; eauto].
  Qed.

  Theorem inner_infix x y out : held H m x -> inner x y -> bytes_of x out -> exists b, bytes_of y b /\ infix b out.
  Proof.
    intros Hh Hi. revert out. induction Hi as [|x y z Hc _ IH]; intros out Hb; [exists out; split; [exact Hb | apply infix_refl]|].
    destruct (inner_child_infix x y out Hh Hc Hb) as (b & A & B).
    destruct (IH (child_held H vcall OK o m x y Hh (inner_child_child _ _ Hc)) b A) as (b' & A' & B'). exists b'. split; [exact A' | eapply infix_trans; eauto].
  Qed.
End Shape.
