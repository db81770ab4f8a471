(** C63 and C64: when it makes no difference whether Marshal is given a value or
    its address, a value or its conversion to another type. *)
From Coq Require Import Permutation Sorted.
From Verif Require Import Base Utf8 JsonSpec NumberModel NumberProof OptionsModel EscapeModel EscapeProof JsonParse StrictParse CompactModel CompactProof IntModel IntProof TypesModel TypesFacts TagsModel CalendarSpec TimeModel TimeProof
  FloatModel FloatProof LeafModel LeafProof MemModel FieldsModel FieldsProof InstrModel ExecModel ValueModel ExecMono ExecProof HostFacts VencFacts MarshalThm DocSpec EntriesFacts DocLeaf PartFacts DocProof SafeProof ApiFacts
  PartsThm ShapeThm CallFacts MethodsThm ExampleHost ExampleConst ExampleRead Properties_Options Properties_Strings Properties_Numbers Properties_Fields Properties_Members Properties_Maps Properties_Api Properties_Marshalers Properties_Compose.

(** ** Values and their addresses *)
Section Address.
  Variable H : host.
  Variable vcall : mkind -> typ -> val -> option Z -> bytes + Z.
  Hypothesis OK : host_ok H vcall.
  Notation E := (h_env H).

  (** The types of the parts that lie within a value of type t: elements of
      arrays, selected fields of structs, at any depth. *)
  Inductive lies_in (t : typ) : typ -> Prop :=
  | li_self : lies_in t t
  | li_element t' n e : lies_in t t' -> under E t' = TArray n e -> lies_in t e
  | li_field t' fs0 k fs f ft : lies_in t t' -> under E t' = TStruct fs0 -> structFields H k t' = Some fs -> In f fs -> type_by_index H t' (f_index f) = Some ft -> lies_in t ft.

  (** The address of a value of type t has no method that the value lacks. *)
  Definition no_more_methods (t : typ) : Prop := is_ptr H t = true \/ native t = true \/ forall k, h_impl H (TPtr t) k = true -> h_impl H t k = true.

  Lemma velems_ext rec e ca ca' : forall vs first out, (forall v, rec e ca false v = rec e ca' false v) -> velems rec e ca vs first out = velems rec e ca' vs first out.
  Proof. induction vs as [|v vs IH]; intros first out X; cbn [velems]; [reflexivity|]. rewrite X. unfold vthen. destruct (rec e ca' false v) as [b [x|]| |]; try reflexivity. apply IH. exact X. Qed.

  Lemma vfields_ext rec o t ca ca' v : forall fs first out,
    (forall f ft q x, In f fs -> type_by_index H t (f_index f) = Some ft -> rec ft ca q x = rec ft ca' q x) ->
    vfields H o rec t ca v fs first out = vfields H o rec t ca' v fs first out.
  Proof.
    induction fs as [|f fs IH]; intros first out X; [reflexivity|]. cbn [vfields].
    assert (X' : forall f ft q x, In f fs -> type_by_index H t (f_index f) = Some ft -> rec ft ca q x = rec ft ca' q x) by (intros; eapply X; eauto; right; assumption).
    destruct (isDeniedField o (f_name f)); [apply IH, X'|]. destruct (negb (right_seq H t f)); [reflexivity|].
    destruct (vget (f_index f) v) as [[x|]|]; [|destruct (type_by_index H t (f_index f)); apply IH, X'|reflexivity].
    destruct (type_by_index H t (f_index f)) as [ft|] eqn:T; [|reflexivity].
    destruct (f_omitNil f && vnil x); [apply IH, X'|]. destruct (f_omitEmpty f && vempty x); [apply IH, X'|].
    cbv zeta. rewrite (X f ft _ x (or_introl eq_refl) T). destruct (rec ft ca' _ x) as [b [e|]| |]; try reflexivity. apply IH, X'.
  Qed.

  Lemma venc_address o : forall n t ca ca' q v, (forall t', lies_in t t' -> no_more_methods t') -> venc H vcall o n t ca q v = venc H vcall o n t ca' q v.
  Proof.
    induction n as [|n IH]; intros t ca ca' q v A; [reflexivity|]. cbn [venc]. destruct (native t) eqn:Nt; [reflexivity|].
    assert (M : method_of H t ca = method_of H t ca').
    { apply method_of_addr. destruct (A t (li_self t)) as [B|[B|B]]; [left; exact B | congruence | right; exact B]. }
    rewrite M. destruct (method_of H t ca') as [[k hp]|]; [reflexivity|]. unfold vkind.
    destruct (under E t) as [ | | | | | | | | | | |len e| |fs0| | | | | | ] eqn:U; try reflexivity.
    - destruct v; try reflexivity. destruct (byte_elem H e && has (o_flags o) byteArrayAsString); [reflexivity|].
      apply velems_ext. intros x. apply IH. intros t' L. apply A. clear - L U. induction L; [eapply li_element; [apply li_self | exact U] | eapply li_element; eauto | eapply li_field; eauto].
    - destruct v; try reflexivity. unfold vstruct. destruct (fields_of H t); [reflexivity|]. destruct (structFields H n t) as [fs|] eqn:S; [|reflexivity].
      apply vfields_ext. intros f ft q' x Hf Hi. apply IH. intros t' L. apply A. clear - L U S Hf Hi.
      induction L; [eapply li_field; [apply li_self | exact U | exact S | exact Hf | exact Hi] | eapply li_element; eauto | eapply li_field; eauto].
  Qed.

  (** Marshal(v) and Marshal(&v), in any memories. *)
  Theorem C63_address m m' t w w' v opts o : call H m t w v opts o -> call H m' (TPtr t) w' (VPtr v) opts o ->
    (forall k, h_impl H (TPtr t) k = false) -> (forall t', lies_in t t' -> no_more_methods t') ->
    forall r, marshal_returns H m (Some (t, w)) opts r <-> marshal_returns H m' (Some (TPtr t, w')) opts r.
  Proof.
    intros C C' P A.
    destruct (call_returns H vcall OK m t w v opts o C) as (out & err & B1 & B2).
    destruct (call_returns H vcall OK m' (TPtr t) w' (VPtr v) opts o C') as (out' & err' & B1' & B2').
    assert (X : outcome out err = outcome out' err').
    { apply encodes_inv in B1, B1'. destruct B1 as [n Hn]. destruct B1' as [k Hk]. destruct k as [|k]; [discriminate|]. cbn [venc native] in Hk.
      rewrite (proj2 (method_none H (TPtr t) (is_ptr H (TPtr t)))) in Hk.
      2:{ intros k0 [X|(X & _)]; [rewrite P in X; discriminate | discriminate X]. }
      unfold vkind in Hk. cbn [under] in Hk. rewrite (venc_address o k t true (is_ptr H t) false v A) in Hk.
      assert (Q1 := venc_mono H vcall o n (Nat.max n k) t (is_ptr H t) false v ltac:(lia) ltac:(rewrite Hn; discriminate)).
      assert (Q2 := venc_mono H vcall o k (Nat.max n k) t (is_ptr H t) false v ltac:(lia) ltac:(rewrite Hk; discriminate)).
      rewrite Hn in Q1. rewrite Hk in Q2. rewrite Q1 in Q2. injection Q2 as -> ->. reflexivity. }
    intros r. rewrite B2, B2', X. tauto.
  Qed.

  (** Equal results, but that errors of a method name the type it was called for. *)
  Inductive addressed (t : typ) : mres -> mres -> Prop :=
  | ad_same r : addressed t r r
  | ad_method k x : addressed t (MErr (EMarshaler t k x)) (MErr (EMarshaler (TPtr t) k x)).

  Lemma pick_same t ca ca' ks : (forall k, h_impl H (TPtr t) k = h_impl H t k) -> pick H (TPtr t) ca ks = pick H t ca' ks.
  Proof. intros P. induction ks as [|k ks IH]; [reflexivity|]. cbn [pick]. rewrite P. destruct (h_impl H t k); [reflexivity|]. rewrite !andb_false_r. exact IH. Qed.

  Lemma method_renamed o k t td td' x x' out err out' err' : (forall c, vcall k td x c = vcall k td' x' c) ->
    vmethod vcall o k t td x = VRet out err -> vmethod vcall o k (TPtr t) td' x' = VRet out' err' -> addressed t (outcome out err) (outcome out' err').
  Proof.
    intros V. unfold vmethod, encode_json_result, encode_text_result. destruct k; rewrite <- V.
    - destruct (vcall MCtx td x (o_ctx o)); intros [= <- <-] [= <- <-]; constructor.
    - destruct (vcall MApp td x None); intros [= <- <-] [= <- <-]; constructor.
    - destruct (vcall MJson td x None) as [b|e]; [|intros [= <- <-] [= <- <-]; constructor].
      destruct (has (o_flags o) noCompact); [intros [= <- <-] [= <- <-]; constructor|].
      destruct (negb (json_valid b)); intros [= <- <-] [= <- <-]; constructor.
    - destruct (vcall MText td x None); intros [= <- <-] [= <- <-]; constructor.
  Qed.

  (** Marshal(v) and Marshal(&v) for a type that has methods itself, all of them
      on values: they are called by way of the pointer with the same results. *)
  Theorem C63_methods m m' t w w' v opts o : call H m t w v opts o -> call H m' (TPtr t) w' (VPtr v) opts o ->
    native t = false -> is_ptr H t = false -> is_iface H t = false -> (exists k, h_impl H t k = true) ->
    (forall k, h_impl H (TPtr t) k = h_impl H t k) -> (forall k c, vcall k (TPtr t) (VPtr v) c = vcall k t v c) ->
    exists r r', addressed t r r' /\ (forall x, marshal_returns H m (Some (t, w)) opts x <-> x = r) /\ (forall x, marshal_returns H m' (Some (TPtr t, w')) opts x <-> x = r').
  Proof.
    intros C C' Nt Pt It [k0 K0] P V.
    destruct (call_returns H vcall OK m t w v opts o C) as (out & err & B1 & B2).
    destruct (call_returns H vcall OK m' (TPtr t) w' (VPtr v) opts o C') as (out' & err' & B1' & B2').
    exists (outcome out err), (outcome out' err'). split; [|auto].
    apply encodes_inv in B1, B1'. destruct B1 as [n Hn]. destruct B1' as [n' Hn']. destruct n as [|n]; [discriminate|]. destruct n' as [|n']; [discriminate|].
    cbn [venc native] in Hn, Hn'. rewrite Nt in Hn. unfold method_of in Hn, Hn'. rewrite (pick_same t _ (is_ptr H t) _ P) in Hn'. rewrite Pt in Hn, Hn'.
    assert (M : exists k, pick H t false [MCtx; MApp; MJson; MText] = Some (k, false)).
    { cbn [pick]. rewrite !andb_false_r. cbn [andb]. destruct (h_impl H t MCtx) eqn:I1; [eexists; reflexivity|]. destruct (h_impl H t MApp) eqn:I2; [eexists; reflexivity|].
      destruct (h_impl H t MJson) eqn:I3; [eexists; reflexivity|]. destruct (h_impl H t MText) eqn:I4; [eexists; reflexivity|]. destruct k0; congruence. }
    destruct M as [k M]. rewrite M in Hn, Hn'. unfold vmarshaler in Hn, Hn'. cbn [under] in Hn'.
    assert (Hn2 : vmethod vcall o k t t v = VRet out err).
    { unfold is_ptr in Pt. unfold is_iface in It. destruct (under E t); try discriminate; (destruct (is_direct H n t) as [[|]|]; [discriminate | exact Hn | discriminate]). }
    eapply method_renamed; [|exact Hn2 | exact Hn']. intros c. symmetry. apply V.
  Qed.
End Address.

(** ** Conversions *)
Section Convert.
  Variable H : host.
  Variable vcall : mkind -> typ -> val -> option Z -> bytes + Z.
  Hypothesis OK : host_ok H vcall.
  Notation E := (h_env H).

  (** The struct types embedded in t, at any depth, by value or by pointer. *)
  Inductive embedded_in (t : typ) : typ -> Prop :=
  | ei_direct d u : In (d, u) (fields_of H t) -> fd_anon d = true -> embedded_in t (strip_ptr u)
  | ei_deep t' d u : embedded_in t t' -> In (d, u) (fields_of H t') -> fd_anon d = true -> embedded_in t (strip_ptr u).

  Lemma embed_anon d t : classify H d t = FEmbed -> fd_anon d = true.
  Proof.
    unfold classify. destruct (negb (should_encode H d t)); [discriminate|]. destruct (bytes_eqb (fd_tag d) [45]); [discriminate|].
    destruct (parse_tag (fd_tag d)) as [name opts]. destruct (fd_anon d); [reflexivity|]. cbn [negb]. rewrite orb_true_r. discriminate.
  Qed.

  Lemma scan_next (R : typ -> Prop) f dup all : forall fs i st, (forall d u, In (d, u) fs -> fd_anon d = true -> R (strip_ptr u)) ->
    Forall (fun b => R (b_typ b)) (s_next st) -> Forall (fun b => R (b_typ b)) (s_next (scan_loop H f dup all i fs st)).
  Proof.
    induction fs as [|[d u] fs IH]; intros i st A F; cbn [scan_loop]; [exact F|]. apply IH; [intros; apply (A d0); [right; assumption | assumption]|].
    unfold scan1. destruct (classify H d u) eqn:C; cbn [s_next]; [exact F | exact F|]. cbv zeta.
    destruct (count (strip_ptr u) (s_ncnt st ++ [strip_ptr u]) =? 1)%nat; [|exact F].
    destruct (sl_append (s_heap st) (b_seq f) _) as [h s]. cbn [s_next]. apply Forall_app. split; [exact F|]. constructor; [|constructor]. cbn [b_typ].
    apply (A d); [left; reflexivity | eapply embed_anon; exact C].
  Qed.

  Lemma scan_same f f' dup all : b_index f = b_index f' -> b_seq f = b_seq f' -> forall fs i st, scan_loop H f dup all i fs st = scan_loop H f' dup all i fs st.
  Proof.
    intros A B. induction fs as [|[d u] fs IH]; intros i st; cbn [scan_loop]; [reflexivity|]. rewrite IH. f_equal. unfold scan1. rewrite A, B. reflexivity.
  Qed.

  Section Reach.
    Variable R : typ -> Prop.
    Variables t t' : typ.
    Hypothesis closed : forall x d u, R x -> In (d, u) (fields_of H x) -> fd_anon d = true -> R (strip_ptr u).
    Hypothesis not_t : ~ R t.
    Hypothesis not_t' : ~ R t'.

    Lemma seen_same x s : R x -> existsb (typ_eqb x) (s ++ [t]) = existsb (typ_eqb x) (s ++ [t']).
    Proof.
      intros Rx. rewrite !existsb_app. f_equal. cbn [existsb]. rewrite !orb_false_r.
      destruct (typ_eqb x t) eqn:A; [apply typ_eqb_eq in A; subst; contradiction|]. destruct (typ_eqb x t') eqn:B; [apply typ_eqb_eq in B; subst; contradiction | reflexivity].
    Qed.
    Lemma level_same ccnt : forall curr s st, Forall (fun b => R (b_typ b)) curr -> Forall (fun b => R (b_typ b)) (s_next st) ->
      exists s' st', level H ccnt curr (s ++ [t]) st = (s' ++ [t], st') /\ level H ccnt curr (s ++ [t']) st = (s' ++ [t'], st') /\ Forall (fun b => R (b_typ b)) (s_next st').
    Proof.
      induction curr as [|f curr IH]; intros s st F G; cbn [level]; [exists s, st; auto|]. inversion F as [|? ? F1 F2]; subst.
      rewrite (seen_same (b_typ f) s F1). destruct (existsb (typ_eqb (b_typ f)) (s ++ [t'])); [apply IH; assumption|].
      apply (IH (b_typ f :: s)); [exact F2|]. unfold scanFields. apply scan_next; [|exact G]. intros d u I An. eapply closed; eauto.
    Qed.
    Lemma bfs_same : forall n s st, Forall (fun b => R (b_typ b)) (s_next st) -> bfs H n (s ++ [t]) st = bfs H n (s ++ [t']) st.
    Proof.
      induction n as [|n IH]; intros s st F; cbn [bfs]; destruct (s_next st) as [|b bs] eqn:N; try reflexivity.
      destruct (level_same (s_ncnt st) (b :: bs) s (mkS (s_flds st) [] [] (s_heap st)) F ltac:(constructor)) as (s' & st' & -> & -> & F'). apply IH. exact F'.
    Qed.
  End Reach.

  Lemma structFields_same t t' n : under E t = under E t' -> ~ embedded_in t t -> ~ embedded_in t t' -> structFields H n t = structFields H n t'.
  Proof.
    intros U A B. assert (FO : fields_of H t = fields_of H t') by (unfold fields_of; rewrite U; reflexivity).
    unfold structFields. destruct n as [|n]; [reflexivity|]. cbn [bfs s_next level b_typ existsb s_flds s_heap s_ncnt].
    change (1 <? count t [])%nat with false. change (1 <? count t' [])%nat with false.
    unfold scanFields. cbn [b_typ]. rewrite <- FO, (scan_same (mkB t [] nil_slice) (mkB t' [] nil_slice) false (fields_of H t) eq_refl eq_refl).
    set (st := scan_loop _ _ _ _ _ _ _).
    assert (F : Forall (fun b => embedded_in t (b_typ b)) (s_next st)) by (unfold st; apply scan_next; [|constructor]; intros d u I An; eapply ei_direct; eauto).
    assert (X := bfs_same (embedded_in t) t t' (fun x d u Rx I An => ei_deep t x d u Rx I An) A B n [] st F). cbn [app] in X. rewrite X. reflexivity.
  Qed.

  Lemma path_seq_same t t' p : under E t = under E t' -> path_seq H t p = path_seq H t' p.
  Proof. intros U. assert (FO : fields_of H t = fields_of H t') by (unfold fields_of; rewrite U; reflexivity). destruct p as [|i p]; cbn [path_seq]; rewrite ?FO; reflexivity. Qed.
  Lemma type_by_same t t' i p : under E t = under E t' -> type_by_index H t (i :: p) = type_by_index H t' (i :: p).
  Proof. intros U. cbn [type_by_index]. rewrite U. destruct (under E t') eqn:U'; try reflexivity; unfold fields_of; rewrite U, U'; reflexivity. Qed.

  Lemma vfields_same rec o t t' ca v : under E t = under E t' -> forall fs first out, vfields H o rec t ca v fs first out = vfields H o rec t' ca v fs first out.
  Proof.
    intros U. induction fs as [|f fs IH]; intros first out; [reflexivity|]. cbn [vfields]. unfold right_seq. rewrite <- (path_seq_same t t' _ U).
    destruct (isDeniedField o (f_name f)); [apply IH|]. destruct (f_index f) as [|i p]; [reflexivity|]. rewrite <- (type_by_same t t' i p U).
    destruct (negb _); [reflexivity|]. destruct (vget (i :: p) v) as [[x|]|]; [|destruct (type_by_index H t (i :: p)); apply IH|reflexivity].
    destruct (type_by_index H t (i :: p)) as [ft|]; [|reflexivity]. destruct (f_omitNil f && vnil x); [apply IH|]. destruct (f_omitEmpty f && vempty x); [apply IH|].
    cbv zeta. destruct (rec ft ca _ x) as [b [e|]| |]; try reflexivity. apply IH.
  Qed.

  (** Equal results, but that each error names the type given. *)
  Inductive converted (t t' : typ) : mres -> mres -> Prop :=
  | cv_same r : converted t t' r r
  | cv_unsupported : converted t t' (MErr (EUnsupportedType t)) (MErr (EUnsupportedType t')).

  (** Marshal(T(v)) and Marshal(U(v)), in any memories. *)
  Theorem C64_conversion m m' t t' w w' v opts o : call H m t w v opts o -> call H m' t' w' v opts o -> DocSpec.plain H t (is_ptr H t) -> DocSpec.plain H t' (is_ptr H t') ->
    under E t = under E t' -> ~ embedded_in t t -> ~ embedded_in t t' ->
    exists r r', converted t t' r r' /\ (forall x, marshal_returns H m (Some (t, w)) opts x <-> x = r) /\ (forall x, marshal_returns H m' (Some (t', w')) opts x <-> x = r').
  Proof.
    intros C C' [P1 P2] [P1' P2'] U A B.
    destruct (call_returns H vcall OK m t w v opts o C) as (out & err & B1 & B2).
    destruct (call_returns H vcall OK m' t' w' v opts o C') as (out' & err' & B1' & B2').
    exists (outcome out err), (outcome out' err'). split; [|auto].
    assert (Ip : is_ptr H t = is_ptr H t') by (unfold is_ptr; rewrite U; reflexivity).
    assert (V : exists n, venc H vcall o (S n) t (is_ptr H t) false v = VRet out err /\ venc H vcall o (S n) t' (is_ptr H t') false v = VRet out' err').
    { apply encodes_inv in B1, B1'. destruct B1 as [n Hn]. destruct B1' as [k Hk]. exists (Nat.max n k).
      rewrite (venc_mono H vcall o n (S (Nat.max n k)) t (is_ptr H t) false v ltac:(lia) ltac:(rewrite Hn; discriminate)).
      rewrite (venc_mono H vcall o k (S (Nat.max n k)) t' (is_ptr H t') false v ltac:(lia) ltac:(rewrite Hk; discriminate)). auto. }
    destruct V as (n & V1 & V2). cbn [venc] in V1, V2. rewrite P1, P2 in V1. rewrite P1', P2', <- Ip in V2.
    assert (S : vstruct H o (venc H vcall o n) n t (is_ptr H t) v = vstruct H o (venc H vcall o n) n t' (is_ptr H t) v).
    { assert (FO : fields_of H t = fields_of H t') by (unfold fields_of; rewrite U; reflexivity).
      unfold vstruct. rewrite <- (structFields_same t t' n U A B), <- FO. destruct (fields_of H t); [reflexivity|].
      destruct (structFields H n t); [|reflexivity]. apply vfields_same. exact U. }
    unfold vkind in V1, V2. rewrite <- U in V2.
    destruct (under E t); try (rewrite V1 in V2; injection V2 as <- <-; constructor);
      try (injection V1 as <- <-; injection V2 as <- <-; apply cv_unsupported).
    - destruct (negb (key_ok H t0_1)); [injection V1 as <- <-; injection V2 as <- <-; apply cv_unsupported|]. rewrite V1 in V2. injection V2 as <- <-. constructor.
    - destruct v; try discriminate V1. rewrite S, V2 in V1. injection V1 as <- <-. constructor.
  Qed.
End Convert.

(** ** Examples *)
(** type S struct{S string; I int}, with the string option: S{"a", 5} and its address. *)
Definition ad_v : val := VStruct [VStr (lit "a"); VInt 5].
Lemma ad_lies t' : lies_in mtH (TNamed 5) t' -> t' = TNamed 5 \/ t' = TString \/ t' = TInt KInt.
Proof.
  induction 1 as [|t' n e L IH U|t' fs0 k fs f ft L IH U S Hf Hi]; [auto | |].
  - destruct IH as [-> | [-> | ->]]; discriminate U.
  - destruct IH as [-> | [-> | ->]]; try discriminate U.
    destruct k as [|[|k]]; [discriminate S | |].
    all: vm_compute in S; injection S as <-; destruct Hf as [<-|[<-|[]]]; vm_compute in Hi; injection Hi as <-; auto.
Qed.
Example C63_ex : (forall r, marshal_returns mtH (mt_m (TNamed 5) ad_v) (Some (TNamed 5, mt_w (TNamed 5) ad_v)) [] r <->
    marshal_returns mtH (mt_m (TPtr (TNamed 5)) (VPtr ad_v)) (Some (TPtr (TNamed 5), mt_w (TPtr (TNamed 5)) (VPtr ad_v))) [] r) /\
  marshal_returns mtH (mt_m (TNamed 5) ad_v) (Some (TNamed 5, mt_w (TNamed 5) ad_v)) [] (MOk (lit "{""S"":""\""a\"""",""I"":""5""}")).
Proof.
  split; [|mt_run]. apply (C63_address mtH mtV mt_ok _ _ (TNamed 5) _ _ ad_v [] default_opts); [mt_call | mt_call | intros []; reflexivity|].
  intros t' L. right. right. destruct (ad_lies t' L) as [-> | [-> | ->]]; intros [] X; discriminate X.
Qed.
(** Inner{1} and &Inner{1}: the method of *C is used for the latter only. *)
Example C63_ex_method : marshal_returns mtH (mt_m (TNamed 1) in_v) (Some (TNamed 1, mt_w (TNamed 1) in_v)) [] (MOk (lit "{""X"":1}")) /\
  marshal_returns mtH (mt_m (TPtr (TNamed 1)) (VPtr in_v)) (Some (TPtr (TNamed 1), mt_w (TPtr (TNamed 1)) (VPtr in_v))) [] (MOk (lit "{""X"":[1]}")).
Proof. split; mt_run. Qed.
(** F(1) and its address: AppendJSON fails. *)
Example C63_ex_error : exists r r', addressed (TNamed 6) r r' /\ r <> r' /\
  (forall x, marshal_returns mtH (mt_m (TNamed 6) (VInt 1)) (Some (TNamed 6, mt_w (TNamed 6) (VInt 1))) [] x <-> x = r) /\
  (forall x, marshal_returns mtH (mt_m (TPtr (TNamed 6)) (VPtr (VInt 1))) (Some (TPtr (TNamed 6), mt_w (TPtr (TNamed 6)) (VPtr (VInt 1)))) [] x <-> x = r').
Proof.
  destruct (C63_methods mtH mtV mt_ok (mt_m (TNamed 6) (VInt 1)) (mt_m (TPtr (TNamed 6)) (VPtr (VInt 1))) (TNamed 6) (mt_w (TNamed 6) (VInt 1)) (mt_w (TPtr (TNamed 6)) (VPtr (VInt 1))) (VInt 1) [] default_opts)
    as (r & r' & A & B & B'); [mt_call | mt_call | reflexivity | reflexivity | reflexivity | exists MApp; reflexivity | intros []; reflexivity | intros [] c; reflexivity|].
  exists r, r'. split; [exact A|]. split; [|auto].
  assert (R : marshal_returns mtH (mt_m (TNamed 6) (VInt 1)) (Some (TNamed 6, mt_w (TNamed 6) (VInt 1))) [] (MErr (EMarshaler (TNamed 6) MApp (IUser 5)))) by mt_run.
  assert (R' : marshal_returns mtH (mt_m (TPtr (TNamed 6)) (VPtr (VInt 1))) (Some (TPtr (TNamed 6), mt_w (TPtr (TNamed 6)) (VPtr (VInt 1)))) [] (MErr (EMarshaler (TPtr (TNamed 6)) MApp (IUser 5)))) by mt_run.
  apply B in R. apply B' in R'. subst r r'. discriminate.
Qed.
(** S{"a", 5} and the struct without a name. *)
Definition cv_t : typ := TStruct [fld "S" ",string" TString; fld "I" ",string" (TInt KInt)].
Example C64_ex : exists r r', converted (TNamed 5) cv_t r r' /\ r = MOk (lit "{""S"":""\""a\"""",""I"":""5""}") /\
  (forall x, marshal_returns mtH (mt_m (TNamed 5) ad_v) (Some (TNamed 5, mt_w (TNamed 5) ad_v)) [] x <-> x = r) /\
  (forall x, marshal_returns mtH (mt_m cv_t ad_v) (Some (cv_t, mt_w cv_t ad_v)) [] x <-> x = r').
Proof.
  assert (Z : forall x, ~ embedded_in mtH (TNamed 5) x).
  { intros x X. induction X as [d u I An|t' d u X IH I An]; [|exact IH]. destruct I as [I|[I|[]]]; injection I as <- <-; discriminate An. }
  destruct (C64_conversion mtH mtV mt_ok (mt_m (TNamed 5) ad_v) (mt_m cv_t ad_v) (TNamed 5) cv_t (mt_w (TNamed 5) ad_v) (mt_w cv_t ad_v) ad_v [] default_opts) as (r & r' & A & B & B');
    [mt_call | mt_call | split; reflexivity | split; reflexivity | reflexivity | apply Z | apply Z|].
  exists r, r'. split; [exact A|]. split; [|auto]. symmetry. apply B. mt_run.
Qed.

Print Assumptions C63_address.
Print Assumptions C63_methods.
Print Assumptions C64_conversion.
