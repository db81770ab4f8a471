(** C29 for the types of a program: conditions on types, not on values, under
    which Marshal is memory safe, and types for which it never is. *)
From Coq Require Import Permutation Sorted.
From Verif Require Import Base Utf8 JsonSpec NumberModel NumberProof OptionsModel EscapeModel EscapeProof JsonParse StrictParse CompactModel CompactProof IntModel IntProof TypesModel TypesFacts TagsModel CalendarSpec TimeModel TimeProof
  FloatModel FloatProof LeafModel LeafProof MemModel FieldsSpec FieldsModel FieldsProof FieldsThm InstrModel ExecModel ValueModel ExecMono ExecProof HostFacts VencFacts MarshalThm DocSpec EntriesFacts DocLeaf PartFacts DocProof SafeProof ApiFacts
  PartsThm ShapeThm CallFacts MethodsThm ExampleHost ExampleConst ExampleRead Properties_Options Properties_Strings Properties_Numbers Properties_Fields Properties_Members Properties_Maps Properties_Api Properties_Marshalers Properties_Compose.

(** ** Types whose values are all read where they are *)
(** A value and the values it is made of. *)
Inductive within : val -> val -> Prop :=
| wi_self v : within v v
| wi_ptr v x : within v x -> within (VPtr v) x
| wi_iface td v x : within v x -> within (VIface td v) x
| wi_slice vs v x : In v vs -> within v x -> within (VSlice vs) x
| wi_arr vs v x : In v vs -> within v x -> within (VArr vs) x
| wi_struct vs v x : In v vs -> within v x -> within (VStruct vs) x
| wi_key es k v x : In (k, v) es -> within k x -> within (VMap es) x
| wi_elem es k v x : In (k, v) es -> within v x -> within (VMap es) x
| wi_skey es k v x : In (k, v) es -> within k x -> within (VSync es) x
| wi_sval es k v x : In (k, v) es -> within v x -> within (VSync es) x.
Lemma within_trans a b : within a b -> forall c, within b c -> within a c.
Proof. induction 1; intros c Hc; [exact Hc | eapply wi_ptr | eapply wi_iface | eapply wi_slice | eapply wi_arr | eapply wi_struct | eapply wi_key | eapply wi_elem | eapply wi_skey | eapply wi_sval]; eauto. Qed.

Lemma vget_within p : forall v x, vget p v = Some (Some x) -> within v x.
Proof.
  induction p as [|i p IH]; intros v x; cbn [vget]; [intros [= <-]; constructor|].
  destruct v as [| | | | | | | | | |vs| | |]; try discriminate. destruct (nth_error vs i) as [v'|] eqn:En; [|discriminate]. apply nth_error_In in En.
  destruct p as [|j p]; [intros [= <-]; eapply wi_struct; [exact En | constructor]|]. intros G. eapply wi_struct; [exact En|].
  destruct v'; try (apply IH; exact G); [discriminate|]. apply wi_ptr, IH, G.
Qed.

Section Types.
  Variable H : host.
  Variable o : encOpts.
  Notation E := (h_env H).

  (** [U] has the types that its members are made of. *)
  Definition made_of (U : list typ) : Prop := forall u v, In u U -> In v (subterms (under E u)) -> In v U.

  Record safe_type (t : typ) : Prop := {
    (* a method is called on the value itself only when the value is not its own word in an interface *)
    st_method : native t = false -> forall ca k, method_of H t ca = Some (k, false) -> (exists e, under E t = TPtr e) \/ (exists ms, under E t = TIface ms) \/ ~ direct H t;
    (* an interface with methods has an encoding method *)
    st_iface : forall ms, under E t = TIface (Some ms) -> forall ca, method_of H t ca <> None;
    st_key : forall kt et, under E t = TMap kt et -> key_readable H o kt false;
    (* embedding: see C19 *)
    st_fields : forall n fs f p sq w i, structFields H n t = Some fs -> In f fs -> f_index f = p ++ [i] ->
      epath E (h_off H) (h_letter H) (h_udigit H) t p sq w -> unshared E (h_off H) (h_letter H) (h_udigit H) t p
  }.

  (** The types [D] may be in interfaces: a type that is its own word in an
      interface is a pointer, a map, or a struct of one such field. *)
  Record safe_types (U D : list typ) : Prop := {
    sa_closed : made_of U;
    sa_types : Forall safe_type U;
    sa_in : incl D U;
    sa_dyn : Forall (dyn_ok H) D;
    sa_sync : In TSyncMap U -> Forall (fun kt => key_readable H o kt (is_ptr H kt)) D
  }.
  (** The interfaces in [v] hold values of the types [D], and there are no nil
      values in a sync.Map. *)
  Definition value_of (D : list typ) (v : val) : Prop :=
    (forall td x, within v (VIface td x) -> In td D) /\ (forall es k x, within v (VSync es) -> In (k, x) es -> x <> VNil).
  Lemma value_within D v x : value_of D v -> within v x -> value_of D x.
  Proof. intros [A B] W. split; intros; [eapply A; eapply within_trans; eauto | eapply B; [eapply within_trans; eauto | eauto]]. Qed.

  Lemma index_in U : made_of U -> forall p t u, In t U -> type_by_index H t p = Some u -> In u U.
  Proof.
    intros CU. induction p as [|i p IH]; intros t u Ht; cbn [type_by_index]; [intros [= <-]; exact Ht|].
    assert (Ht' : In match under E t with TPtr e => e | _ => t end U).
    { destruct (under E t) eqn:Eu; try exact Ht. apply (CU t); [exact Ht|]. rewrite Eu. cbn [subterms]. right. apply subterms_self. }
    destruct (nth_error (fields_of H _) i) as [[d u']|] eqn:En; [|discriminate]. apply IH. apply nth_error_In in En. unfold fields_of in En.
    eapply CU; [exact Ht'|]. destruct (under E (match under E t with TPtr e => e | _ => t end)); try (destruct En; fail). eapply subterms_field; [exact En | apply subterms_self].
  Qed.

  Lemma child_types U D t ca q v t' ca' q' v' : safe_types U D -> In t U -> value_of D v -> child H o (t, ca, q, v) (t', ca', q', v') -> In t' U /\ value_of D v'.
  Proof.
    intros S Ht Hv C. assert (CU := sa_closed _ _ S). assert (I0 := sa_in _ _ S).
    assert (G : forall u, under E t = u -> forall e, In e (subterms u) -> In e U) by (intros u <- e He; exact (CU t e Ht He)).
    assert (V : forall x, within v x -> value_of D x) by (intros x W; eapply value_within; eauto).
    inversion C as [? ? ? e x _ U0|? ? ? td x _ U0|? ? ? e vs x _ U0 _ I1|? ? ? n e vs x _ U0 _ I1|? ? ? kt et es k x _ U0 _ I1 _ _|? ? ? kt et es k x _ U0 _ I1|? ? ? fs0 n fs vs f ft x _ U0 _ _ Sh|? ? es kt k x I1 _ _|? ? es k vt x I1]; subst.
    - split; [|apply V, wi_ptr; constructor]. eapply G; [exact U0|]. right. apply subterms_self.
    - split; [apply I0; apply (proj1 Hv t' v'); constructor | apply V, wi_iface; constructor].
    - split; [|apply V; eapply wi_slice; [exact I1 | constructor]]. eapply G; [exact U0|]. right. apply subterms_self.
    - split; [|apply V; eapply wi_arr; [exact I1 | constructor]]. eapply G; [exact U0|]. right. apply subterms_self.
    - split; [|apply V; eapply wi_key; [exact I1 | constructor]]. eapply G; [exact U0|]. right. apply in_app_iff. left. apply subterms_self.
    - split; [|apply V; eapply wi_elem; [exact I1 | constructor]]. eapply G; [exact U0|]. right. apply in_app_iff. right. apply subterms_self.
    - destruct Sh as (_ & (X1 & X2) & _). split; [eapply index_in; eauto | apply V; eapply vget_within; eauto].
    - split; [apply I0, (proj1 Hv t' v'); eapply wi_skey; [exact I1 | constructor] | apply V; eapply wi_skey; [exact I1 | do 2 constructor]].
    - split; [apply I0, (proj1 Hv t' v'); eapply wi_sval; [exact I1 | constructor] | apply V; eapply wi_sval; [exact I1 | do 2 constructor]].
  Qed.
  Lemma part_types U D : safe_types U D -> forall x y, part H o x y -> In (fst (fst (fst x))) U -> value_of D (snd x) -> In (fst (fst (fst y))) U /\ value_of D (snd y).
  Proof.
    intros S. induction 1 as [x|[[[t ca] q] v] [[[t' ca'] q'] v'] z C _ IH]; intros A B; [auto|]. cbn [fst snd] in *.
    destruct (child_types U D t ca q v t' ca' q' v' S A B C) as [X Y]. apply IH; assumption.
  Qed.

  Lemma types_readable U D t ca q v : safe_types U D -> In t U -> value_of D v -> readable_node H o (t, ca, q, v).
  Proof.
    intros S Ht [Hv Hn]. assert (T := sa_types _ _ S). rewrite Forall_forall in T. specialize (T t Ht). assert (Dy := sa_dyn _ _ S). rewrite Forall_forall in Dy.
    destruct (native t) eqn:En.
    - destruct t; try discriminate; cbn [readable_node]; auto; try (destruct v; exact I).
      destruct v as [| | | | | | | | | | | |es|]; auto. intros k x Hx. assert (Sy := sa_sync _ _ S Ht). rewrite Forall_forall in Sy. split; [eapply Hn; [constructor | exact Hx]|]. split.
      + intros kt k' ->. assert (In kt D) by (eapply Hv; eapply wi_skey; [exact Hx | constructor]). auto.
      + intros vt v' ->. apply Dy. eapply Hv. eapply wi_sval; [exact Hx | constructor].
    - assert (G : match method_of H t ca with
        | Some (_, true) => True
        | Some (_, false) => match under E t with TPtr _ | TIface _ => True | _ => ~ direct H t end
        | None =>
          match under E t, v with
          | TIface (Some _), VIface _ _ => False
          | TIface None, VIface td _ => dyn_ok H td
          | TMap kt _, VMap _ => key_readable H o kt false
          | TStruct _, VStruct _ =>
            forall n fs f p sq w i, structFields H n t = Some fs -> In f fs -> ~ denied o (f_name f) -> f_index f = p ++ [i] ->
              epath E (h_off H) (h_letter H) (h_udigit H) t p sq w -> unshared E (h_off H) (h_letter H) (h_udigit H) t p
          | _, _ => True
          end
        end).
      { destruct (method_of H t ca) as [[k [|]]|] eqn:Em; [exact I| |].
        - destruct (st_method _ T En ca k Em) as [[e ->]|[[ms ->]|N]]; [exact I | exact I|]. destruct (under E t); auto.
        - destruct (under E t) eqn:Eu; auto.
          + destruct methods as [ms|]; [destruct (st_iface _ T ms Eu ca Em)|]. destruct v; auto. apply Dy, (Hv _ v). constructor.
          + destruct v; auto. eapply st_key; eauto.
          + destruct v; auto. intros n f0 f p sq w i A1 A2 _ A3 A4. eapply st_fields; eauto. }
      destruct t; try discriminate En; exact G.
  Qed.
  Lemma types_call U D m t w v opts : safe_types U D -> In t D -> value_of D v -> holds H m t w v -> call_opts opts = Some o -> call H m t w v opts o.
  Proof.
    intros S Ht Hv Hh Ho. constructor; [exact Hh | exact Ho | |].
    - assert (Dy := sa_dyn _ _ S). rewrite Forall_forall in Dy. auto.
    - intros [[[t' ca] q] v'] Hp. destruct (part_types U D S _ _ Hp) as [A B]; [apply (sa_in _ _ S); exact Ht | exact Hv|]. eapply types_readable; eauto.
  Qed.
End Types.

Theorem C29_types H vcall U D m t w v opts o : host_ok H vcall -> call_opts opts = Some o -> safe_types H o U D ->
  In t D -> value_of D v -> holds H m t w v ->
  exists r, marshal_returns H m (Some (t, w)) opts r /\ r <> MCrash.
Proof.
  intros OK Ho S Ht Hv Hh. assert (C := types_call H o U D m t w v opts S Ht Hv Hh Ho). destruct (C44_terminates_partial H vcall m t w v opts o OK C) as [r R].
  exists r. split; [exact R|]. intros ->. exact (C29_safe_partial H vcall m t w v opts o OK C R).
Qed.

(** Fields with at most three embedded structs above them satisfy the condition
    of [safe_type]. *)
Lemma few_levels H t p sq w : wf_host H -> typ_ok (h_letter H) (h_udigit H) t -> epath (h_env H) (h_off H) (h_letter H) (h_udigit H) t p sq w -> (length p <= 3)%nat ->
  unshared (h_env H) (h_off H) (h_letter H) (h_udigit H) t p.
Proof. intros WF Tt Hp Hl. eapply FieldsThm.steady_short; eauto. Qed.

(** ** Types that are never read where they are *)
Section Word.
  Variable H : host.
  Variable vcall : mkind -> typ -> val -> option Z -> bytes + Z.
  Hypothesis OK : host_ok H vcall.
  Variable o : encOpts.
  Variable m : mem.
  Notation E := (h_env H).
  Notation tok := (typ_ok (h_letter H) (h_udigit H)).

  (** To encode a value of type t, the word at its beginning is read as a
      pointer or a map. *)
  Inductive looks : typ -> bool -> Prop :=
  | lk_ptr t ca e : DocSpec.plain H t ca -> under E t = TPtr e -> looks t ca
  | lk_map t ca kt et : DocSpec.plain H t ca -> under E t = TMap kt et -> key_ok H kt = true -> looks t ca
  | lk_array t ca n e : DocSpec.plain H t ca -> under E t = TArray (S n) e -> looks e ca -> looks t ca
  | lk_struct t ca d u k f : DocSpec.plain H t ca -> under E t = TStruct [(d, u)] -> structFields H k t = Some [f] -> f_index f = [0%nat] -> ~ denied o (f_name f) ->
      looks u ca -> looks t ca.

  Lemma plain_instr t ca : DocSpec.plain H t ca -> go_type_instr t = None /\ marshaler_instr H t ca = None.
  Proof.
    intros [N M]. split.
    - rewrite native_go in N. destruct (go_type_instr t); [discriminate | reflexivity].
    - rewrite marshaler_pick, M. reflexivity.
  Qed.
  Lemma array_repr l t n e v : under E t = TArray n e -> repr H m l t v ->
    exists vs, v = VArr vs /\ length vs = n /\ forall i x, nth_error vs i = Some x -> repr H m (ladd l (Z.of_nat i * h_size H e)) e x.
  Proof.
    intros U V.
    assert (Q1 : isNilable E t = false) by (unfold isNilable; rewrite U; reflexivity). assert (Q2 : opaque H t = false) by (unfold opaque; rewrite U; reflexivity).
    inversion V; subst; cbn [under] in *; try congruence.
    match goal with X : under E t = TArray (length _) _ |- _ => rewrite U in X; injection X as X1 X2; subst end. eauto.
  Qed.
  Lemma struct_repr l t fs v : under E t = TStruct fs -> native t = false -> repr H m l t v ->
    exists vs, v = VStruct vs /\ length vs = length fs /\ forall i d u x, nth_error fs i = Some (d, u) -> nth_error vs i = Some x -> repr H m (ladd l (h_off H fs i)) u x.
  Proof.
    intros U N V.
    assert (Q1 : isNilable E t = false) by (unfold isNilable; rewrite U; reflexivity). assert (Q2 : opaque H t = false) by (unfold opaque; rewrite U; reflexivity).
    inversion V; subst; cbn [under native] in *; try congruence.
    match goal with X : under E t = TStruct ?f0 |- _ => assert (f0 = fs) by congruence; subst f0 end. eauto.
  Qed.
  Lemma word_at w x t v : (exists e, under E t = TPtr e) \/ (exists kt et, under E t = TMap kt et) -> repr H m (LTmp w x) t v -> x = 0.
  Proof.
    intros U V. assert (G : exists c, rd m (LTmp w x) = Some c).
    { assert (Q : opaque H t = false) by (unfold opaque; destruct U as [(e & U)|(kt & et & U)]; rewrite U; reflexivity).
      inversion V; subst; eauto; destruct U as [(e' & U)|(kt & et & U)]; cbn [under] in *; congruence. }
    destruct G as [c G]. cbn [rd] in G. destruct (Z.eqb_spec x 0); [assumption | discriminate].
  Qed.
  Lemma looks_off t ca : looks t ca -> forall w x v, 0 <= x -> repr H m (LTmp w x) t v -> x = 0.
  Proof.
    induction 1 as [t ca e P U|t ca kt et P U K|t ca n e P U L IH|t ca d u ks f P U Sf Fi De L IH]; intros w x v X V.
    - eapply word_at; eauto.
    - eapply word_at; eauto.
    - destruct (array_repr _ _ _ _ _ U V) as ([|v0 vs] & -> & Ln & Hv); [discriminate|]. assert (V0 := Hv 0%nat v0 eq_refl). replace (Z.of_nat 0 * h_size H e) with 0 in V0 by lia. cbn [ladd] in V0. rewrite Z.add_0_r in V0. eapply IH; eauto.
    - destruct (struct_repr _ _ _ _ U (proj1 P) V) as ([|v0 vs] & -> & Ln & Hv); [discriminate|]. assert (V0 := Hv 0%nat d u v0 eq_refl eq_refl). cbn [ladd] in V0. assert (Q := ok_off _ _ OK [(d, u)] 0%nat).
      assert (x + h_off H [(d, u)] 0 = 0) by (eapply IH; [|exact V0]; lia). lia.
  Qed.

  Lemma looks_crash t ca : looks t ca -> tok t -> forall w v, rd_word m (LMem w) = None -> repr H m (LTmp w 0) t v -> forall k q i, compile H k t ca q = Some i ->
    exists N, forall dst, exec H o m N i (LMem w) dst = Crash.
  Proof.
    induction 1 as [t ca e P U|t ca kt et P U K|t ca n e P U L IH|t ca d u ks f P U Sf Fi De L IH]; intros Tt w v R V k q i C; (destruct k as [|k]; [discriminate|]); cbn [compile] in C;
      destruct (plain_instr t ca P) as [G1 G2]; rewrite G1, G2 in C; unfold basic_instr in C; rewrite U in C.
    - destruct (compile H k e true q) as [j|]; [|discriminate]. injection C as <-. exists 1%nat. intros dst. cbn [exec]. rewrite R. reflexivity.
    - rewrite K in C. cbn [negb] in C. destruct (if isString E kt then _ else _) as [ki|]; [|discriminate]. destruct (compile H k et false false) as [vi|]; [|discriminate]. injection C as <-.
      exists 1%nat. intros dst. cbn [exec]. rewrite R. reflexivity.
    - destruct (compile H k e ca false) as [j|] eqn:Ej; [|discriminate]. injection C as <-.
      assert (Be : byte_elem H e = false).
      { unfold byte_elem. destruct L as [? ? ? ? X|? ? ? ? ? X|? ? ? ? ? X|? ? ? ? ? ? ? X]; rewrite X; reflexivity. }
      assert (Te : tok e). { assert (X := under_ok H (ok_wf _ _ OK) t Tt). rewrite U in X. exact X. }
      destruct (array_repr _ _ _ _ _ U V) as ([|v0 vs] & -> & Ln & Hv); [discriminate|].
      assert (V0 := Hv 0%nat v0 eq_refl). replace (Z.of_nat 0 * h_size H e) with 0 in V0 by lia. cbn [ladd] in V0. rewrite Z.add_0_r in V0.
      destruct (IH Te w v0 R V0 k false j Ej) as [N HN]. exists (S N). intros dst. cbn [exec]. unfold exec_array. rewrite Be. cbn [andb exec_elems]. replace (0 * h_size H e) with 0 by lia. cbn [ladd]. rewrite Z.add_0_r, HN. reflexivity.
    - injection C as <-. destruct (struct_repr _ _ _ _ U (proj1 P) V) as ([|v0 vs] & -> & Ln & Hv); [discriminate|]. assert (V0 := Hv 0%nat d u v0 eq_refl eq_refl). cbn [ladd] in V0. assert (Q := ok_off _ _ OK [(d, u)] 0%nat).
      assert (Z0 : h_off H [(d, u)] 0 = 0) by (assert (0 + h_off H [(d, u)] 0 = 0) by (eapply looks_off; [exact L | | exact V0]; lia); lia). rewrite Z0 in V0. cbn [Z.add] in V0.
      assert (Fo : fields_of H t = [(d, u)]) by (unfold fields_of; rewrite U; reflexivity).
      assert (Tu : tok u). { assert (X := fields_of_ok H (ok_wf _ _ OK) t Tt). rewrite Fo in X. apply (Forall_inv X). }
      assert (Ti : type_by_index H t (f_index f) = Some u). { rewrite Fi. cbn [type_by_index]. rewrite U, Fo. reflexivity. }
      assert (Sq : f_seq f = [(0, false)]).
      { destruct (structFields_data H (ok_wf _ _ OK) t Tt ks _ f Sf (or_introl eq_refl)) as (p & sq & w' & i & u' & opts & A1 & A2 & _ & _ & _ & _ & A3).
        rewrite Fi in A1. destruct p as [|p0 p]; [|destruct p; discriminate]. injection A1 as <-. inversion A2 as [|p' ? ? ? ? ? ? ? ? ? X]; [|destruct p'; discriminate]. subst. rewrite (A3 (us_nil _ _ _ _ _)), Fo, Z0. reflexivity. }
      destruct (ok_compile _ _ OK u ca (f_quoted f && isBasicType E match under E u with TPtr e => e | _ => u end) Tu) as (k2 & j & Ej).
      destruct (IH Tu w v0 R V0 k2 _ j Ej) as [N HN]. exists (S (Nat.max N (Nat.max ks k2))). intros dst. cbn [exec]. unfold struct_body. rewrite Fo.
      rewrite (structFields_mono H ks _ t _ Sf) by lia. cbn [build_fields]. unfold build_field. rewrite Ti. rewrite (compile_mono H k2 _ _ _ _ _ Ej) by lia. cbn [exec_fields sf_name sf_seq sf_omitNil sf_empty sf_instr].
      destruct (isDeniedField o (f_name f)) eqn:Ed; [destruct De; apply isDeniedField_spec; exact Ed|]. rewrite Sq. cbn [follow ladd onSome]. rewrite Z.add_0_r.
      destruct (f_omitNil f && isNilable E u); [unfold is_nil; rewrite R; reflexivity|]. cbn [onSome].
      destruct (f_omitEmpty f).
      + assert (Em : is_empty H m u (LMem w) = None \/ is_empty H m u (LMem w) = Some false).
        { unfold is_empty. destruct L as [? ? ? ? X|? ? ? ? ? X|? ? ? ? ? X|? ? ? ? ? ? ? X]; rewrite X, ?R; auto. }
        destruct Em as [-> | ->]; cbn [onSome]; [reflexivity|]. rewrite (exec_mono H o m N _ _ _ _ _ (HN _)) by (try discriminate; lia). reflexivity.
      + cbn [onSome]. rewrite (exec_mono H o m N _ _ _ _ _ (HN _)) by (try discriminate; lia). reflexivity.
  Qed.
End Word.

(** A type that is its own word in an interface, and which the code takes for
    one that is not (an array of one pointer, say): unless the word points to
    another word, Marshal crashes.  It does so on the zero value, whose word is
    nil. *)
Theorem C29_word H vcall m t w v opts o : host_ok H vcall -> call_opts opts = Some o -> holds H m t w v -> direct H t -> ~ inlined H t -> looks H o t (is_ptr H t) ->
  rd_word m (LMem w) = None -> marshal_returns H m (Some (t, w)) opts MCrash.
Proof.
  intros OK Ho Hh Hd Hi L R. inversion Hh as [|? ? ? Tt _ V _]; subst. specialize (V Hd).
  destruct (ok_compile _ _ OK t (is_ptr H t) false Tt) as (k1 & i & Ci). destruct (ok_inlined _ _ OK t Tt) as (k2 & b & Bi).
  assert (b = false) by (destruct b; [destruct Hi; apply (isInlined_spec H k2 t true Bi); reflexivity | reflexivity]). subst b.
  destruct (looks_crash H vcall OK o m t _ L Tt w v R V k1 false i Ci) as [N HN].
  exists (Nat.max N (Nat.max k1 k2)). unfold MarshalOpts. unfold call_opts in Ho. destruct (check_opts opts) as [o'|]; [injection Ho as ->|discriminate]. split; [|discriminate].
  unfold marshal_json, append_json, cached_instr. cbn [fst snd]. rewrite (compile_mono H k1 _ _ _ _ _ Ci) by lia. rewrite (isInlined_mono H k2 _ _ _ Bi) by lia.
  rewrite (exec_mono H o m N _ _ _ _ _ (HN [])) by (try discriminate; lia). reflexivity.
Qed.

(** ** Examples *)
(** type Base struct { ID int; Tags map[string]interface{} }
    type Doc struct { Base; Prev *Base } *)
Definition sd_ds : list typ := [TStruct [fld "ID" "" (TInt KInt); fld "Tags" "" (TMap TString (TIface None))];
  TStruct [(mkFD (lit "Base") false true [], TNamed 0); fld "Prev" "" (TPtr (TNamed 0))]].
Definition sdH : host := plainH sd_ds.
Definition sd_ok : host_ok sdH plainV := plainH_ok sd_ds eq_refl.
(** What there is in such a program; the last four, and []interface{}, may be in
    interfaces. *)
Definition sd_D : list typ := [TNamed 1; TPtr (TNamed 1); TString; TInt KInt; TSlice (TIface None)].
Definition sd_U : list typ := [TNamed 0; TPtr (TNamed 0); TMap TString (TIface None); TIface None; under (h_env sdH) (TNamed 0); under (h_env sdH) (TNamed 1)] ++ sd_D.
Lemma sd_safe o : safe_types sdH o sd_U sd_D.
Proof.
  constructor.
  - intros u v Hu Hv. unfold sd_U, sd_D in *. cbn [app In] in Hu. repeat (destruct Hu as [<-|Hu]; [vm_compute in Hv; vm_compute; tauto|]). destruct Hu.
  - assert (F : forall t, typ_ok (h_letter sdH) (h_udigit sdH) t -> (exists n fs, structFields sdH n t = Some fs /\ forallb (fun f => (length (f_index f) <=? 4)%nat) fs = true) ->
      (forall ms, under (h_env sdH) t <> TIface (Some ms)) -> safe_type sdH o t).
    { intros t Tt (n & fs & Sf & L) N. constructor.
      - intros _ ca k Em. exfalso. destruct ca; cbn in Em; [destruct (negb (is_ptr sdH t)); discriminate | destruct (negb (is_ptr sdH t)); discriminate].
      - intros ms U. destruct (N ms U).
      - intros kt et _. right. right. left. reflexivity.
      - intros n' fs' f p sq w i Sf' Hf Fi Hp. assert (fs' = fs) by (apply (structFields_mono sdH n (Nat.max n n')) in Sf; [|lia]; apply (structFields_mono sdH n' (Nat.max n n')) in Sf'; [|lia]; congruence). subst fs'.
        rewrite forallb_forall in L. specialize (L f Hf). rewrite Fi, app_length in L. cbn [length] in L. eapply few_levels; eauto; [exact (ok_wf _ _ sd_ok) | lia]. }
    unfold sd_U, sd_D. cbn [app]. repeat (apply Forall_cons; [apply F; [apply declb_ok; reflexivity | exists 5%nat; eexists; split; vm_compute; reflexivity | discriminate]|]). apply Forall_nil.
  - intros t Ht. unfold sd_U. apply in_app_iff. right. exact Ht.
  - unfold sd_D. repeat (apply Forall_cons; [right; intros Dr|]); [| | | | |apply Forall_nil]; try (inversion Dr; discriminate). eapply in_ptr. reflexivity.
  - intros [X|X]; [discriminate|]. repeat (destruct X as [X|X]; [discriminate|]). destruct X.
Qed.
(** Doc{Base{7, map{"a": []interface{}{nil, "x"}}}, &Base{8, map{"b": 9}}} *)
Definition sd_v : val := VStruct [VStruct [VInt 7; VMap [(VStr (lit "a"), VIface (TSlice (TIface None)) (VSlice [VNil; VIface TString (VStr (lit "x"))]))]];
  VPtr (VStruct [VInt 8; VMap [(VStr (lit "b"), VIface (TInt KInt) (VInt 9))]])].
Ltac split_within := repeat match goal with
  | I : In _ (_ :: _) |- _ => destruct I as [I|I]; [try (injection I as ? ?); subst|]
  | I : In _ [] |- _ => destruct I
  | W : within _ _ |- _ => inversion W; subst; clear W
  end.
Lemma sd_value : value_of sd_D sd_v.
Proof. split; [intros td x W | intros es k x W]; unfold sd_v in W; split_within; unfold sd_D; cbn [In]; auto 10; discriminate. Qed.
Example C29_ex_types opts o : call_opts opts = Some o ->
  exists r, marshal_returns sdH (mem_of sdH (TNamed 1) sd_v) (Some (TNamed 1, word_of sdH (TNamed 1) sd_v)) opts r /\ r <> MCrash.
Proof.
  intros Ho. apply (C29_types sdH plainV sd_U sd_D _ _ _ sd_v opts o sd_ok Ho (sd_safe o)); [left; reflexivity | exact sd_value|].
  apply (holdsb_ok sdH declb declb_ok _ 10). vm_compute. reflexivity.
Qed.
Example C29_ex_types_text : marshal_returns sdH (mem_of sdH (TNamed 1) sd_v) (Some (TNamed 1, word_of sdH (TNamed 1) sd_v)) []
  (MOk (lit "{""ID"":7,""Tags"":{""a"":[null,""x""]},""Prev"":{""ID"":8,""Tags"":{""b"":9}}}")).
Proof. exists 20%nat. split; [vm_compute; reflexivity | discriminate]. Qed.
(** Of [1]*int the word is that of the pointer, and the type is no one's safe type. *)
Example C29_ex_unsafe H o U D : In (TArray 1 (TPtr (TInt KInt))) D -> ~ safe_types H o U D.
Proof.
  intros Hi S. assert (X := sa_dyn _ _ _ _ S). rewrite Forall_forall in X. destruct (X _ Hi) as [Y|Y]; [discriminate|].
  assert (Z : direct H (TArray 1 (TPtr (TInt KInt)))) by (eapply d_array; [reflexivity | eapply d_ptr; reflexivity]). specialize (Y Z). inversion Y; discriminate.
Qed.

(** [1]*int{nil}, and struct { A [1]map[string]int } with a nil map *)
Example C29_ex_word : marshal_returns (plainH []) (lookup []) (Some (TArray 1 (TPtr (TInt KInt)), 0)) [] MCrash.
Proof.
  apply (C29_word (plainH []) plainV (lookup []) _ 0 (VArr [VNil]) [] default_opts (plainH_ok [] eq_refl) eq_refl).
  - apply (holdsb_ok (plainH []) declb declb_ok _ 10). vm_compute. reflexivity.
  - eapply d_array; [reflexivity | eapply d_ptr; reflexivity].
  - intros X. inversion X; discriminate.
  - eapply lk_array; [split; reflexivity | reflexivity | eapply lk_ptr; [split; reflexivity | reflexivity]].
  - reflexivity.
Qed.
Definition am_t : typ := TStruct [fld "A" "" (TArray 1 (TMap TString (TInt KInt)))].
Example C29_ex_word_map : marshal_returns (plainH []) (lookup []) (Some (am_t, 0)) [] MCrash.
Proof.
  apply (C29_word (plainH []) plainV (lookup []) am_t 0 (VStruct [VArr [VNil]]) [] default_opts (plainH_ok [] eq_refl) eq_refl).
  - apply (holdsb_ok (plainH []) declb declb_ok _ 10). vm_compute. reflexivity.
  - eapply d_struct; [reflexivity|]. eapply d_array; [reflexivity | eapply d_map; reflexivity].
  - intros X. inversion X as [| |? ? ? U Y]; subst; try discriminate. injection U as <- <-. inversion Y; discriminate.
  - eapply (lk_struct _ _ am_t _ _ _ 5%nat); [split; reflexivity | reflexivity | vm_compute; reflexivity | reflexivity | |].
    + intros [(l & X & _)|(l & X & _)]; discriminate X.
    + eapply lk_array; [split; reflexivity | reflexivity | eapply lk_map; [split; reflexivity | reflexivity | reflexivity]].
  - reflexivity.
Qed.
Print Assumptions C29_types.
Print Assumptions C29_word.
