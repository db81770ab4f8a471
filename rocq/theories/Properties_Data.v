(** C67: pointers, interfaces, named types, the width of integers and the choice
    between slices and arrays do not show in the result: values that hold the
    same data are encoded alike. *)
From Coq Require Import Permutation Sorted.
From Verif Require Import Base Utf8 JsonSpec NumberModel NumberProof OptionsModel EscapeModel EscapeProof JsonParse StrictParse CompactModel CompactProof IntModel IntProof TypesModel TypesFacts TagsModel CalendarSpec TimeModel TimeProof
  FloatModel FloatProof LeafModel LeafProof MemModel FieldsSpec FieldsModel FieldsSelect FieldsProof FieldsThm InstrModel ExecModel ValueModel ExecMono ExecProof HostFacts VencFacts MarshalThm DocSpec EntriesFacts DocLeaf PartFacts DocProof SafeProof ApiFacts
  PartsThm ShapeThm CallFacts MethodsThm ExampleHost ExampleConst ExampleRead Properties_Options Properties_Strings Properties_Numbers Properties_Fields Properties_Members Properties_Maps Properties_Api Properties_Marshalers Properties_Compose Properties_Convert.

Section Data.
  Variable H : host.
  Variable vcall : mkind -> typ -> val -> option Z -> bytes + Z.
  Hypothesis OK : host_ok H vcall.
  Variable opts : list (option option_).
  Variable o : encOpts.
  Notation E := (h_env H).
  Notation enc := (venc H vcall o).

  (** ** Values with the same data *)
  (** Encoded by kind, addressable or not. *)
  Definition by_kind (t : typ) : Prop := forall ca, DocSpec.plain H t ca.
  (** The methods of the address matter for no part that lies within. *)
  Definition anywhere (t : typ) : Prop := forall t', lies_in H t t' -> no_more_methods H t'.

  (** Booleans, strings and floats of types with the same underlying type. *)
  Definition scalar (u : typ) : Prop := u = TBool \/ u = TString \/ exists b, u = TFloat b.

  (** Encoded as null. *)
  Inductive null_value : typ -> val -> Prop :=
  | nu_pointer t e : under E t = TPtr e -> null_value t VNil
  | nu_iface t ms : under E t = TIface ms -> null_value t VNil
  | nu_slice t e : under E t = TSlice e -> byte_elem H e = true \/ has (o_flags o) nilSliceEmpty = false -> null_value t VNil
  | nu_map t kt et : under E t = TMap kt et -> key_ok H kt = true -> has (o_flags o) nilMapEmpty = false -> null_value t VNil.

  (** Encoded as an array of elements of type e. *)
  Inductive sequence : typ -> val -> typ -> list val -> Prop :=
  | sq_slice t e vs : under E t = TSlice e -> byte_elem H e = false -> sequence t (VSlice vs) e vs
  | sq_nil t e : under E t = TSlice e -> byte_elem H e = false -> has (o_flags o) nilSliceEmpty = true -> sequence t VNil e []
  | sq_array t n e vs : under E t = TArray n e -> byte_elem H e && has (o_flags o) byteArrayAsString = false -> sequence t (VArr vs) e vs.

  (** Encoded as an object with keys of type kt. *)
  Inductive mapping : typ -> val -> typ -> typ -> list (val * val) -> Prop :=
  | mp_map t kt et es : under E t = TMap kt et -> key_ok H kt = true -> mapping t (VMap es) kt et es
  | mp_nil t kt et : under E t = TMap kt et -> key_ok H kt = true -> has (o_flags o) nilMapEmpty = true -> mapping t VNil kt et [].

  Inductive same_data : typ -> val -> typ -> val -> Prop :=
  | sd_same t v : anywhere t -> same_data t v t v
  | sd_scalar t t' v : by_kind t -> by_kind t' -> scalar (under E t) -> under E t' = under E t -> same_data t v t' v
  | sd_int t t' k k' n : by_kind t -> by_kind t' -> under E t = TInt k -> under E t' = TInt k' -> int_range k n -> int_range k' n -> same_data t (VInt n) t' (VInt n)
  | sd_null t v t' v' : by_kind t -> by_kind t' -> null_value t v -> null_value t' v' -> same_data t v t' v'
  (* behind a pointer or in an interface, on either side *)
  | sd_pointer t v u e x : by_kind u -> under E u = TPtr e -> same_data t v e x -> same_data t v u (VPtr x)
  | sd_deref u e x t v : by_kind u -> under E u = TPtr e -> same_data e x t v -> same_data u (VPtr x) t v
  | sd_iface t v u td x : by_kind u -> under E u = TIface None -> same_data t v td x -> same_data t v u (VIface td x)
  | sd_unbox u td x t v : by_kind u -> under E u = TIface None -> same_data td x t v -> same_data u (VIface td x) t v
  | sd_sequence t v e vs t' v' e' vs' : by_kind t -> by_kind t' -> sequence t v e vs -> sequence t' v' e' vs' -> same_list e vs e' vs' -> same_data t v t' v'
  | sd_mapping t v kt et es t' v' et' es' : by_kind t -> by_kind t' -> mapping t v kt et es -> mapping t' v' kt et' es' -> same_entries et es et' es' -> same_data t v t' v'
  | sd_struct t vs fs0 k fs t' vs' fs0' k' fs' : tyok H t -> tyok H t' -> by_kind t -> by_kind t' -> under E t = TStruct fs0 -> under E t' = TStruct fs0' ->
      structFields H k t = Some fs -> structFields H k' t' = Some fs' -> same_members t (VStruct vs) t' (VStruct vs') fs fs' -> same_data t (VStruct vs) t' (VStruct vs')
  with same_list : typ -> list val -> typ -> list val -> Prop :=
  | sl_nil e e' : same_list e [] e' []
  | sl_cons e v vs e' v' vs' : same_data e v e' v' -> same_list e vs e' vs' -> same_list e (v :: vs) e' (v' :: vs')
  with same_entries : typ -> list (val * val) -> typ -> list (val * val) -> Prop :=
  | se_nil e e' : same_entries e [] e' []
  | se_cons e k v es e' v' es' : same_data e v e' v' -> same_entries e es e' es' -> same_entries e ((k, v) :: es) e' ((k, v') :: es')
  (* the fields shown have the same names and data, in order *)
  with same_members : typ -> val -> typ -> val -> list field -> list field -> Prop :=
  | sm_nil t v t' v' : same_members t v t' v' [] []
  | sm_left t v t' v' f fs fs' : hidden H o t v f -> same_members t v t' v' fs fs' -> same_members t v t' v' (f :: fs) fs'
  | sm_right t v t' v' f fs fs' : hidden H o t' v' f -> same_members t v t' v' fs fs' -> same_members t v t' v' fs (f :: fs')
  | sm_field t v t' v' f ft x f' ft' x' fs fs' : shown H o t v f ft x -> shown H o t' v' f' ft' x' -> f_name f = f_name f' ->
      (drops_null H f ft <-> drops_null H f' ft') -> quoted H f ft = false -> quoted H f' ft' = false -> same_data ft x ft' x' ->
      same_members t v t' v' fs fs' -> same_members t v t' v' (f :: fs) (f' :: fs')
  | sm_quoted t v t' v' f f' ft x fs fs' : shown H o t v f ft x -> shown H o t' v' f' ft x -> f_name f = f_name f' ->
      (drops_null H f ft <-> drops_null H f' ft) -> quoted H f ft = true -> quoted H f' ft = true -> anywhere ft ->
      same_members t v t' v' fs fs' -> same_members t v t' v' (f :: fs) (f' :: fs').

  Scheme sd_ind := Induction for same_data Sort Prop
    with sl_ind := Induction for same_list Sort Prop
    with se_ind := Induction for same_entries Sort Prop
    with sm_ind := Induction for same_members Sort Prop.

  (** ** Results that agree *)
  Definition sim (x y : vres) : Prop := forall b e b' e', x = VRet b e -> y = VRet b' e' -> outcome b e = outcome b' e'.
  Definition alike (t : typ) (q : bool) (v : val) (t' : typ) (q' : bool) (v' : val) : Prop := forall n n' ca ca', sim (enc n t ca q v) (enc n' t' ca' q' v').

  Lemma sim_eq x y : (forall b e b' e', x = VRet b e -> y = VRet b' e' -> b = b' /\ e = e') -> sim x y.
  Proof. intros A b e b' e' X Y. destruct (A _ _ _ _ X Y) as [-> ->]. reflexivity. Qed.
  Lemma enc_det n n' t ca q v b e b' e' : enc n t ca q v = VRet b e -> enc n' t ca q v = VRet b' e' -> b = b' /\ e = e'.
  Proof.
    intros X Y. assert (A := venc_mono H vcall o n (Nat.max n n') t ca q v ltac:(lia) ltac:(rewrite X; discriminate)).
    assert (B := venc_mono H vcall o n' (Nat.max n n') t ca q v ltac:(lia) ltac:(rewrite Y; discriminate)). rewrite X in A. rewrite Y in B. rewrite A in B. injection B as -> ->. auto.
  Qed.
  Lemma alike_same t q v : anywhere t -> alike t q v t q v.
  Proof. intros A n n' ca ca'. apply sim_eq. intros b e b' e' X Y. rewrite (venc_address H vcall o n' t ca' ca q v A) in Y. eapply enc_det; eauto. Qed.
  Lemma vthen_sim pre x y k k' : sim x y -> (forall b, sim (k b) (k' b)) -> sim (vthen pre x k) (vthen pre y k').
  Proof.
    intros A B b e b' e' X Y. unfold vthen in X, Y. destruct x as [xb [xe|]| |], y as [yb [ye|]| |]; try discriminate X; try discriminate Y; assert (Z := A _ _ _ _ eq_refl eq_refl); cbn [outcome] in Z; try discriminate Z.
    - injection X as <- <-. injection Y as <- <-. exact Z.
    - injection Z as <-. eapply B; eauto.
  Qed.
  Lemma enc_kind n t ca q v b e : by_kind t -> enc n t ca q v = VRet b e -> exists n0, n = S n0 /\ vkind H o (enc n0) n0 t ca q v = VRet b e.
  Proof. intros P X. destruct n as [|n]; [discriminate|]. exists n. split; [reflexivity|]. cbn [venc] in X. destruct (P ca) as [P1 P2]. rewrite P1, P2 in X. exact X. Qed.

  Lemma int_text k k' n : int_range k n -> int_range k' n -> encode_int k n [] = encode_int k' n [].
  Proof. intros A B. destruct (encode_int_spec k n [] A) as (s & -> & L), (encode_int_spec k' n [] B) as (s' & -> & L'). cbn [app]. eapply C09_literal_unique; eauto. Qed.
  Lemma null_enc n t ca v b e : null_value t v -> vkind H o (enc n) n t ca false v = VRet b e -> b = l_null /\ e = None.
  Proof.
    unfold vkind. intros [u f U|u ms U|u f U B|u kt et U K B]; rewrite U; intros X.
    - injection X as <- <-. auto.
    - injection X as <- <-. auto.
    - destruct B as [B|B]; rewrite B in X; [|destruct (byte_elem H f)]; injection X as <- <-; auto.
    - rewrite K, B in X. injection X as <- <-. auto.
  Qed.
  Lemma seq_enc n t ca v e vs : sequence t v e vs -> exists ca', vkind H o (enc n) n t ca false v = velems (enc n) e ca' vs true [].
  Proof.
    unfold vkind. intros [u f ws U B|u f U B F|u k f ws U B]; rewrite U, B.
    - exists true. reflexivity.
    - exists true. rewrite F. reflexivity.
    - exists ca. reflexivity.
  Qed.
  Definition cells n kt et es := map (fun kv : val * val => (vkey H o (enc n) kt (fst kv), enc n et false false (snd kv))) es.
  Lemma map_enc n t ca v kt et es : mapping t v kt et es -> vkind H o (enc n) n t ca false v = match es with [] => VRet [123; 125] None | _ => ventries H o (cells n kt et es) end.
  Proof. unfold vkind, cells. intros [u k f ws U K|u k f U K F]; rewrite U, K; cbn [negb]; [reflexivity | rewrite F; reflexivity]. Qed.

  Lemma vkey_sim n n' kt k : sim (vkey H o (enc n) kt k) (vkey H o (enc n') kt k).
  Proof.
    apply sim_eq. unfold vkey. intros b e b' e' X Y. destruct (isString E kt); [destruct k; try discriminate; split; congruence|]. destruct (h_impl H kt MText && is_ptr H kt && vnil k); [split; congruence|].
    assert (A := enc_det n n' kt false false k). unfold vquote_if, vquote in X, Y. destruct (negb (h_impl H kt MText)); [|eapply A; eauto].
    destruct (enc n kt false false k) as [xb xe| |]; [|discriminate|discriminate]. destruct (enc n' kt false false k) as [yb ye| |]; [|discriminate|discriminate]. destruct (A _ _ _ _ eq_refl eq_refl) as [-> ->]. split; congruence.
  Qed.

  Lemma unsorted_sim es es' : Forall2 (fun p p' => sim (fst p) (fst p') /\ sim (snd p) (snd p')) es es' -> forall first out, sim (vunsorted es first out) (vunsorted es' first out).
  Proof.
    induction 1 as [|[k v] [k' v'] es es' [A B] _ IH]; intros first out; cbn [vunsorted].
    - apply sim_eq. intros; split; congruence.
    - apply vthen_sim; [exact A|]. intros b. apply vthen_sim; [exact B|]. intros b'. apply IH.
  Qed.
  Lemma fill_sim es es' : Forall2 (fun p p' => sim (fst p) (fst p') /\ sim (snd p) (snd p')) es es' -> forall kvs,
    match vfill es kvs, vfill es' kvs with VFOk l, VFOk l' => l = l' | VFErr e, VFErr e' => e = e' | VFOk _, VFErr _ | VFErr _, VFOk _ => False | _, _ => True end.
  Proof.
    assert (T : forall r : vfill_res, match r with VFOk _ | VFErr _ | _ => True end) by (intros []; exact I).
    induction 1 as [|[k v] [k' v'] es es' [A B] _ IH]; intros kvs; [reflexivity|]. cbn [vfill fst snd] in *.
    destruct k as [kb ke| |].
    2, 3: destruct k' as [kb' [ke'|]| |]; try exact I; destruct (length kb' <? 2)%nat; try exact I; destruct v' as [vb' [ve'|]| |]; try exact I; destruct (vfill es' _); exact I.
    destruct k' as [kb' ke'| |].
    2, 3: destruct ke as [ke|]; try exact I; destruct (length kb <? 2)%nat; try exact I; destruct v as [vb [ve|]| |]; try exact I; destruct (vfill es _); exact I.
    assert (Z := A _ _ _ _ eq_refl eq_refl). destruct ke as [ke|], ke' as [ke'|]; cbn [outcome] in Z; try discriminate Z; injection Z as <-; [reflexivity|].
    destruct (length kb <? 2)%nat; [exact I|]. destruct v as [vb ve| |].
    2, 3: destruct v' as [vb' [ve'|]| |]; try exact I; destruct (vfill es' _); exact I.
    destruct v' as [vb' ve'| |].
    2, 3: destruct ve as [ve|]; try exact I; destruct (vfill es _); exact I.
    assert (Z := B _ _ _ _ eq_refl eq_refl). destruct ve as [ve|], ve' as [ve'|]; cbn [outcome] in Z; try discriminate Z; injection Z as <-; [reflexivity | apply IH].
  Qed.
  Lemma entries_sim es es' : Forall2 (fun p p' => sim (fst p) (fst p') /\ sim (snd p) (snd p')) es es' -> sim (ventries H o es) (ventries H o es').
  Proof.
    intros F. unfold ventries. apply vthen_sim; [|intros b; apply sim_eq; intros; split; congruence]. destruct (has (o_flags o) unsortedMap); [apply unsorted_sim, F|].
    unfold vsorted. assert (A := fill_sim es es' F []). intros b e b' e' X Y. destruct (vfill es []), (vfill es' []); try discriminate X; try discriminate Y; try destruct A; try (subst; congruence).
  Qed.

  (** ** Same data, same result *)
  Lemma struct_enc n t ca vs fs0 k fs b e : tyok H t -> by_kind t -> under E t = TStruct fs0 -> structFields H k t = Some fs -> enc n t ca false (VStruct vs) = VRet b e ->
    exists n0, vfields H o (enc n0) t ca (VStruct vs) fs true [] = VRet b e.
  Proof.
    intros T P U S X. destruct (enc_kind _ _ _ _ _ _ _ P X) as (n0 & -> & Y). exists n0. unfold vkind in Y. rewrite U in Y. unfold vstruct in Y. destruct (fields_of H t) as [|fd fds] eqn:Ef.
    - injection Y as <- <-. assert (fs = []) by (eapply DocProof.no_fields; eauto). subst fs. reflexivity.
    - destruct (structFields H n0 t) as [fs'|] eqn:S'; [|discriminate]. assert (fs' = fs) by (eapply structFields_det; eauto). subst fs'. exact Y.
  Qed.
  Lemma fields_hidden n t ca v f fs first out b e : hidden H o t v f -> vfields H o (enc n) t ca v (f :: fs) first out = VRet b e -> vfields H o (enc n) t ca v fs first out = VRet b e.
  Proof.
    cbn [vfields]. intros Hh Hr. destruct (isDeniedField o (f_name f)) eqn:D; [exact Hr|]. destruct (negb (right_seq H t f)); [discriminate|].
    destruct Hh as [Hh|[Hh|(ft & x & [S2 S3] & S4)]]; [apply isDeniedField_spec in Hh; congruence | rewrite Hh in Hr; exact Hr|]. rewrite S2, S3 in Hr.
    apply dropped_spec, orb_true_iff in S4. destruct S4 as [S4|S4]; rewrite S4 in Hr; [exact Hr|]. destruct (f_omitNil f && vnil x); exact Hr.
  Qed.
  Lemma fields_shown n t ca v f ft x fs first out b e : shown H o t v f ft x -> vfields H o (enc n) t ca v (f :: fs) first out = VRet b e ->
    exists xb xe, enc n ft ca (quoted H f ft) x = VRet xb xe /\ match xe with
    | Some y => e = Some y
    | None => vfields H o (enc n) t ca v fs false
        (if f_omitNil f && (h_impl H ft MJson || h_impl H (TPtr ft) MJson) && tail_null xb then (if first then out ++ (if first then [123] else [44]) else out)
         else out ++ (if first then [123] else [44]) ++ key_text o (f_name f) ++ xb) = VRet b e
    end.
  Proof.
    intros (S1 & [S2 S3] & S4). cbn [vfields]. rewrite <- isDeniedField_spec in S1. apply not_true_is_false in S1. rewrite S1.
    destruct (negb (right_seq H t f)); [discriminate|]. rewrite S2, S3. rewrite <- dropped_spec in S4. apply not_true_is_false, orb_false_iff in S4. destruct S4 as [S4 S5]. rewrite S4, S5.
    change (f_quoted f && isBasicType E match under E ft with TPtr e => e | _ => ft end) with (quoted H f ft). cbv zeta.
    destruct (enc n ft ca (quoted H f ft) x) as [xb [xe|]| |]; try discriminate; intros Hr; exists xb; eexists; (split; [reflexivity|]); [injection Hr as <- <-; reflexivity | exact Hr].
  Qed.
  Lemma fields_step n n' ca ca' t v t' v' f ft x f' ft' x' fs fs' first out : shown H o t v f ft x -> shown H o t' v' f' ft' x' -> f_name f = f_name f' -> (drops_null H f ft <-> drops_null H f' ft') ->
    alike ft (quoted H f ft) x ft' (quoted H f' ft') x' ->
    (forall first out, sim (vfields H o (enc n) t ca v fs first out) (vfields H o (enc n') t' ca' v' fs' first out)) ->
    sim (vfields H o (enc n) t ca v (f :: fs) first out) (vfields H o (enc n') t' ca' v' (f' :: fs') first out).
  Proof.
    intros S S' N D A IH b e b' e' X Y. destruct (fields_shown _ _ _ _ _ _ _ _ _ _ _ _ S X) as (xb & xe & X1 & X2), (fields_shown _ _ _ _ _ _ _ _ _ _ _ _ S' Y) as (yb & ye & Y1 & Y2).
    assert (Z := A _ _ _ _ _ _ _ _ X1 Y1). destruct xe as [xe|], ye as [ye|]; cbn [outcome] in Z; try discriminate Z; injection Z as <-; [subst; reflexivity|].
    assert (Q : f_omitNil f && (h_impl H ft MJson || h_impl H (TPtr ft) MJson) = f_omitNil f' && (h_impl H ft' MJson || h_impl H (TPtr ft') MJson)).
    { apply eq_true_iff_eq. rewrite !andb_true_iff, !orb_true_iff. exact D. }
    rewrite Q, N in X2. eapply IH; eauto.
  Qed.

  Theorem same_alike t v t' v' : same_data t v t' v' -> alike t false v t' false v'.
  Proof.
    intros R. refine (sd_ind (fun t v t' v' _ => alike t false v t' false v') (fun e vs e' vs' _ => forall n n' ca ca' first out, sim (velems (enc n) e ca vs first out) (velems (enc n') e' ca' vs' first out))
      (fun et es et' es' _ => (es = [] <-> es' = []) /\ forall n n' kt, Forall2 (fun p p' => sim (fst p) (fst p') /\ sim (snd p) (snd p')) (cells n kt et es) (cells n' kt et' es'))
      (fun t v t' v' fs fs' _ => forall n n' ca ca' first out, sim (vfields H o (enc n) t ca v fs first out) (vfields H o (enc n') t' ca' v' fs' first out))
      _ _ _ _ _ _ _ _ _ _ _ _ _ _ _ _ _ _ _ _ t v t' v' R); clear t v t' v' R.
    - intros t v A. apply alike_same, A.
    - intros t t' v P P' Sc U n n' ca ca'. apply sim_eq. intros b e b' e' X Y. destruct (enc_kind _ _ _ _ _ _ _ P X) as (m & _ & X'), (enc_kind _ _ _ _ _ _ _ P' Y) as (m' & _ & Y').
      unfold vkind in X', Y'. rewrite U in Y'. destruct Sc as [Sc|[Sc|[w Sc]]]; rewrite Sc in X', Y'; destruct v; try discriminate; rewrite X' in Y'; injection Y' as -> ->; auto.
    - intros t t' k k' z P P' U U' I I' n n' ca ca'. apply sim_eq. intros b e b' e' X Y. destruct (enc_kind _ _ _ _ _ _ _ P X) as (m & _ & X'), (enc_kind _ _ _ _ _ _ _ P' Y) as (m' & _ & Y').
      unfold vkind in X', Y'. rewrite U in X'. rewrite U' in Y'. cbn [vquote_if] in X', Y'. injection X' as <- <-. injection Y' as <- <-. split; [apply int_text; assumption | reflexivity].
    - intros t v t' v' P P' N N' n n' ca ca'. apply sim_eq. intros b e b' e' X Y. destruct (enc_kind _ _ _ _ _ _ _ P X) as (m & _ & X'), (enc_kind _ _ _ _ _ _ _ P' Y) as (m' & _ & Y').
      destruct (null_enc _ _ _ _ _ _ N X') as [-> ->], (null_enc _ _ _ _ _ _ N' Y') as [-> ->]. auto.
    - intros t v u e x P U _ IH n n' ca ca' b e0 b' e' X Y. destruct (enc_kind _ _ _ _ _ _ _ P Y) as (m' & _ & Y'). unfold vkind in Y'. rewrite U in Y'. eapply IH; eauto.
    - intros u e x t v P U _ IH n n' ca ca' b e0 b' e' X Y. destruct (enc_kind _ _ _ _ _ _ _ P X) as (m' & _ & X'). unfold vkind in X'. rewrite U in X'. eapply IH; eauto.
    - intros t v u td x P U _ IH n n' ca ca' b e0 b' e' X Y. destruct (enc_kind _ _ _ _ _ _ _ P Y) as (m' & _ & Y'). unfold vkind in Y'. rewrite U in Y'. unfold vany in Y'.
      destruct (is_direct H m' td) as [d|]; [|discriminate]. destruct (isInlined H m' td) as [i|]; [|discriminate]. destruct (Bool.eqb d i || opaque H td); [|discriminate]. eapply IH; eauto.
    - intros u td x t v P U _ IH n n' ca ca' b e0 b' e' X Y. destruct (enc_kind _ _ _ _ _ _ _ P X) as (m' & _ & X'). unfold vkind in X'. rewrite U in X'. unfold vany in X'.
      destruct (is_direct H m' td) as [d|]; [|discriminate]. destruct (isInlined H m' td) as [i|]; [|discriminate]. destruct (Bool.eqb d i || opaque H td); [|discriminate]. eapply IH; eauto.
    - intros t v e vs t' v' e' vs' P P' Sq Sq' _ IH n n' ca ca' b x b' x' X Y. destruct (enc_kind _ _ _ _ _ _ _ P X) as (m & _ & X'), (enc_kind _ _ _ _ _ _ _ P' Y) as (m' & _ & Y').
      destruct (seq_enc m t ca v e vs Sq) as [c Ec], (seq_enc m' t' ca' v' e' vs' Sq') as [c' Ec']. rewrite Ec in X'. rewrite Ec' in Y'. eapply IH; eauto.
    - intros t v kt et es t' v' et' es' P P' M M' _ [N IH] n n' ca ca' b x b' x' X Y. destruct (enc_kind _ _ _ _ _ _ _ P X) as (m & _ & X'), (enc_kind _ _ _ _ _ _ _ P' Y) as (m' & _ & Y').
      rewrite (map_enc _ _ _ _ _ _ _ M) in X'. rewrite (map_enc _ _ _ _ _ _ _ M') in Y'. destruct es as [|kv es], es' as [|kv' es'].
      + congruence.
      + discriminate (proj1 N eq_refl).
      + discriminate (proj2 N eq_refl).
      + eapply entries_sim; [apply (IH m m' kt) | eassumption | eassumption].
    - intros t vs fs0 k fs t' vs' fs0' k' fs' T T' P P' U U' S S' _ IH n n' ca ca' b x b' x' X Y.
      destruct (struct_enc _ _ _ _ _ _ _ _ _ T P U S X) as [m X'], (struct_enc _ _ _ _ _ _ _ _ _ T' P' U' S' Y) as [m' Y']. eapply IH; eauto.
    - intros e e' n n' ca ca' first out. cbn [velems]. apply sim_eq. intros; split; congruence.
    - intros e v vs e' v' vs' _ IH _ IHs n n' ca ca' first out. cbn [velems]. apply vthen_sim; [apply IH | intros b; apply IHs].
    - intros e e'. split; [tauto|]. intros n n' kt. constructor.
    - intros e k v es e' v' es' _ IH _ [_ IHs]. split; [split; discriminate|]. intros n n' kt. constructor; [|apply IHs]. split; [apply vkey_sim | apply IH].
    - intros t v t' v' n n' ca ca' first out. cbn [vfields]. apply sim_eq. intros; split; congruence.
    - intros t v t' v' f fs fs' Hh _ IH n n' ca ca' first out b e b' e' X Y. eapply IH; [eapply fields_hidden; eauto | exact Y].
    - intros t v t' v' f fs fs' Hh _ IH n n' ca ca' first out b e b' e' X Y. eapply IH; [exact X | eapply fields_hidden; eauto].
    - intros t v t' v' f ft x f' ft' x' fs fs' S S' N D Q Q' _ A _ IH n n' ca ca' first out. eapply fields_step; eauto. rewrite Q, Q'. exact A.
    - intros t v t' v' f f' ft x fs fs' S S' N D Q Q' A _ IH n n' ca ca' first out. eapply fields_step; eauto. rewrite Q, Q'. apply alike_same, A.
  Qed.

  (** Marshal gives the same result for both values, in any memories. *)
  Theorem C67_same_data m t w v m' t' w' v' : call H m t w v opts o -> call H m' t' w' v' opts o -> same_data t v t' v' ->
    forall r, marshal_returns H m (Some (t, w)) opts r <-> marshal_returns H m' (Some (t', w')) opts r.
  Proof.
    intros C C' R r. destruct (call_returns H vcall OK m t w v opts o C) as (b & e & A & B), (call_returns H vcall OK m' t' w' v' opts o C') as (b' & e' & A' & B').
    rewrite B, B'. apply encodes_inv in A, A'. destruct A as [n X], A' as [n' Y]. rewrite (same_alike _ _ _ _ R _ _ _ _ _ _ _ _ X Y). reflexivity.
  Qed.
End Data.

(** ** Examples *)
(** type S string;
    struct{A int64; B []*S; M map[string]int; Z bool `json:",omitempty"`} and
    any(struct{A any; B [2]any; M *map[string]any; T int `json:"-"`}). *)
Definition da_ds : list typ := [TString].
Definition da_H : host := plainH da_ds.
Lemma da_ok : host_ok da_H plainV. Proof. apply plainH_ok. vm_compute. reflexivity. Qed.
Definition da_any : typ := TIface None.
Definition da_map : typ := TMap TString (TInt KInt).
Definition da_gmap : typ := TMap TString da_any.
Definition da_t : typ := TStruct [fld "A" "" (TInt KInt64); fld "B" "" (TSlice (TPtr (TNamed 0))); fld "M" "" da_map; fld "Z" ",omitempty" TBool].
Definition da_t' : typ := TStruct [fld "A" "" da_any; fld "B" "" (TArray 2 da_any); fld "M" "" (TPtr da_gmap); fld "T" "-" (TInt KInt)].
Definition da_es : list (val * val) := [(VStr (lit "y"), VInt 7); (VStr (lit "x"), VInt 300)].
Definition da_es' : list (val * val) := [(VStr (lit "y"), VIface (TInt KInt8) (VInt 7)); (VStr (lit "x"), VIface (TInt KUint16) (VInt 300))].
Definition da_v : val := VStruct [VInt (-5); VSlice [VPtr (VStr (lit "s")); VNil]; VMap da_es; VBool false].
Definition da_v' : val := VStruct [VIface (TInt KInt8) (VInt (-5)); VArr [VIface TString (VStr (lit "s")); VNil]; VPtr (VMap da_es'); VInt 9].
Lemma da_call t v : callb da_H 10 t v default_opts = true -> call da_H (mem_of da_H t v) t (word_of da_H t v) v [] default_opts.
Proof. apply (plain_call da_ds 10). reflexivity. Qed.
Lemma da_tok t v : callb da_H 10 t v default_opts = true -> tyok da_H t.
Proof. intros X. exact (call_part_tok da_H plainV da_ok _ t _ v [] default_opts (da_call t v X) _ (part_refl da_H default_opts _)). Qed.
Lemma da_kind t : native t = false -> by_kind da_H t.
Proof. intros N ca. split; [exact N|]. apply method_none. intros k [A|(_ & _ & A)]; discriminate A. Qed.
Ltac bk := apply da_kind; reflexivity.
Ltac da_int := eapply sd_int; [bk | bk | reflexivity | reflexivity | vm_compute; split; congruence | vm_compute; split; congruence].
Ltac da_shown := split; [intros D; apply isDeniedField_spec in D; vm_compute in D; discriminate D | split; [split; vm_compute; reflexivity | intros D; apply dropped_spec in D; vm_compute in D; discriminate D]].
Definition da_out : bytes := lit "{""A"":-5,""B"":[""s"",null],""M"":{""x"":300,""y"":7}}".
Lemma da_same : same_data da_H default_opts da_t da_v da_any (VIface da_t' da_v').
Proof.
  apply sd_iface; [bk | reflexivity|].
  destruct (structFields da_H 10 da_t) as [fs|] eqn:S; [|vm_compute in S; discriminate]. destruct (structFields da_H 10 da_t') as [fs'|] eqn:S'; [|vm_compute in S'; discriminate].
  eapply sd_struct; [apply (da_tok da_t da_v); vm_compute; reflexivity | apply (da_tok da_t' da_v'); vm_compute; reflexivity | bk | bk | reflexivity | reflexivity | exact S | exact S'|].
  vm_compute in S. injection S as <-. vm_compute in S'. injection S' as <-.
  eapply sm_field; [da_shown | da_shown | reflexivity | split; intros [X _]; discriminate X | reflexivity | reflexivity | |].
  { apply sd_iface; [bk | reflexivity|]. da_int. }
  eapply sm_field; [da_shown | da_shown | reflexivity | split; intros [X _]; discriminate X | reflexivity | reflexivity | |].
  { eapply sd_sequence; [bk | bk | apply sq_slice; reflexivity | eapply sq_array; reflexivity|]. constructor; [|constructor; [|constructor]].
    - eapply sd_deref; [bk | reflexivity|]. apply sd_iface; [bk | reflexivity|]. apply sd_scalar; [bk | bk | right; left; reflexivity | reflexivity].
    - apply sd_null; [bk | bk | eapply nu_pointer; reflexivity | eapply nu_iface; reflexivity]. }
  eapply sm_field; [da_shown | da_shown | reflexivity | split; intros [X _]; discriminate X | reflexivity | reflexivity | |].
  { eapply sd_pointer; [bk | reflexivity|]. eapply sd_mapping; [bk | bk | apply mp_map; reflexivity | apply mp_map; reflexivity|].
    constructor; [apply sd_iface; [bk | reflexivity | da_int]|]. constructor; [apply sd_iface; [bk | reflexivity | da_int] | constructor]. }
  apply sm_left; [|constructor]. right. right. eexists _, _. split; [split; vm_compute; reflexivity | apply dropped_spec; vm_compute; reflexivity].
Qed.
Example C67_ex_run : marshal_returns da_H (mem_of da_H da_t da_v) (Some (da_t, word_of da_H da_t da_v)) [] (MOk da_out).
Proof. exists 20%nat. split; [vm_compute; reflexivity | discriminate]. Qed.
(** *any: the outermost interface is behind a pointer. *)
Definition da_p : typ := TPtr da_any.
Definition da_pv : val := VPtr (VIface da_t' da_v').
Example C67_ex : marshal_returns da_H (mem_of da_H da_p da_pv) (Some (da_p, word_of da_H da_p da_pv)) [] (MOk da_out).
Proof.
  apply (C67_same_data da_H plainV da_ok [] default_opts _ da_t _ da_v _ da_p _ da_pv (da_call da_t da_v ltac:(vm_compute; reflexivity)) (da_call da_p da_pv ltac:(vm_compute; reflexivity))).
  - eapply sd_pointer; [bk | reflexivity | exact da_same].
  - exact C67_ex_run.
Qed.
Print Assumptions C67_same_data.
