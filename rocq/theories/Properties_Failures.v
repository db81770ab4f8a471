(** Property C65: when Marshal fails, and with which error. *)
From Coq Require Import Permutation Sorted.
From Verif Require Import Base Utf8 JsonSpec NumberModel NumberProof OptionsModel EscapeModel EscapeProof JsonParse StrictParse CompactModel CompactProof IntModel IntProof TypesModel TypesFacts TagsModel CalendarSpec TimeModel TimeProof
  FloatModel FloatProof LeafModel LeafProof MemModel FieldsSpec FieldsModel FieldsProof FieldsThm InstrModel ExecModel ValueModel ExecMono ExecProof HostFacts VencFacts MarshalThm DocSpec EntriesFacts DocLeaf PartFacts DocProof SafeProof ApiFacts
  PartsThm ShapeThm CallFacts MethodsThm ExampleHost ExampleConst ExampleRead Properties_Options Properties_Strings Properties_Numbers Properties_Fields Properties_Members Properties_Maps Properties_Api Properties_Marshalers Properties_Compose Properties_Static.

Section Failures.
  Variable H : host.
  Variable vcall : mkind -> typ -> val -> option Z -> bytes + Z.
  Variable o : encOpts.
  Notation E := (h_env H).
  Notation opt := (has (o_flags o)).

  (** Nothing in x raises an error. *)
  Definition encodable (x : node) : Prop := forall y e, part H o x y -> ~ raises H vcall o y e.

  (** ** The order of encoding *)
  (** One thing done to encode a composite value: a part is encoded, or a key of
      a sync.Map found to be no key. *)
  Definition step : Type := node + gerr.
  Definition key_steps (kt : typ) (k : val) : list step :=
    if isString E kt then [] else if h_impl H kt MText && is_ptr H kt && vnil k then [] else [inl (kt, false, false, k)].
  Definition sync_key_steps (k : val) : list step :=
    match k with
    | VNil => [inr ENilKey]
    | VIface kt x => if isString E kt then [] else if isInteger E kt || h_impl H kt MText then [inl (kt, is_ptr H kt, false, x)] else [inr (EKeyType kt)]
    | _ => []
    end.
  Definition sync_val_steps (x : val) : list step := match x with VIface vt y => [inl (vt, is_ptr H vt, false, y)] | _ => [] end.

  Inductive field_steps (t : typ) (ca : bool) (v : val) : list field -> list step -> Prop :=
  | fi_nil : field_steps t ca v [] []
  | fi_hidden f fs l : hidden H o t v f -> field_steps t ca v fs l -> field_steps t ca v (f :: fs) l
  | fi_shown f ft x fs l : shown H o t v f ft x -> field_steps t ca v fs l -> field_steps t ca v (f :: fs) (inl (ft, ca, quoted H f ft, x) :: l).

  (** All that is done for a composite value, in order.  Elements and fields in
      their order, the entries of a map as the runtime iterates over them, also
      when they are sorted afterwards. *)
  Inductive steps : node -> list step -> Prop :=
  | sp_ptr t ca q e v : DocSpec.plain H t ca -> under E t = TPtr e -> steps (t, ca, q, VPtr v) [inl (e, true, q, v)]
  | sp_iface t ca q td v : DocSpec.plain H t ca -> under E t = TIface None -> steps (t, ca, q, VIface td v) [inl (td, is_ptr H td, false, v)]
  | sp_slice t ca q e vs : DocSpec.plain H t ca -> under E t = TSlice e -> byte_elem H e = false -> steps (t, ca, q, VSlice vs) (map (fun v => inl (e, true, false, v)) vs)
  | sp_array t ca q n e vs : DocSpec.plain H t ca -> under E t = TArray n e -> byte_elem H e && opt byteArrayAsString = false -> steps (t, ca, q, VArr vs) (map (fun v => inl (e, ca, false, v)) vs)
  | sp_map t ca q kt et es : DocSpec.plain H t ca -> under E t = TMap kt et -> key_ok H kt = true ->
      steps (t, ca, q, VMap es) (flat_map (fun kv => key_steps kt (fst kv) ++ [inl (et, false, false, snd kv)]) es)
  | sp_struct t ca q fs0 n fs vs l : DocSpec.plain H t ca -> under E t = TStruct fs0 -> structFields H n t = Some fs -> field_steps t ca (VStruct vs) fs l -> steps (t, ca, q, VStruct vs) l
  | sp_sync ca q es : steps (TSyncMap, ca, q, VSync es) (flat_map (fun kv => sync_key_steps (fst kv) ++ sync_val_steps (snd kv)) es).

  (** [fails x e]: x is no composite and raises e itself, or e is the error of the
      first thing that fails of those done for x. *)
  Inductive fails : node -> gerr -> Prop :=
  | fa_self x e : (forall l, ~ steps x l) -> raises H vcall o x e -> fails x e
  | fa_key x l1 e l2 : steps x (l1 ++ inr e :: l2) -> (forall s, In s l1 -> exists y, s = inl y /\ encodable y) -> fails x e
  | fa_part x l1 y l2 e : steps x (l1 ++ inl y :: l2) -> (forall s, In s l1 -> exists y, s = inl y /\ encodable y) -> fails y e -> fails x e.

  Hypothesis OK : host_ok H vcall.
  Variable m : mem.

  Lemma gives_encodable x : held H m x -> gives_bytes H vcall o x -> encodable x.
  Proof. intros Hh G y e Hp R. eapply (raises_none H vcall o OK); [exact R|]. eapply (part_gives H vcall o OK m); eauto. Qed.

  Lemma steps_child x l y : steps x l -> In (inl y) l -> child H o x y.
  Proof.
    intros St Hi. destruct St as [t ca q e v P U|t ca q td v P U|t ca q e vs P U B|t ca q n e vs P U B|t ca q kt et es P U K|t ca q fs0 n fs vs l P U Sf F|ca q es].
    - destruct Hi as [[= <-]|[]]. eapply ch_ptr; eauto.
    - destruct Hi as [[= <-]|[]]. eapply ch_iface; eauto.
    - apply in_map_iff in Hi. destruct Hi as (v & [= <-] & Hi). eapply ch_slice; eauto.
    - apply in_map_iff in Hi. destruct Hi as (v & [= <-] & Hi). eapply ch_array; eauto.
    - apply in_flat_map in Hi. destruct Hi as ([k v] & Hi & Hs). cbn [fst snd] in Hs. apply in_app_iff in Hs. destruct Hs as [Hs|[[= <-]|[]]]; [|eapply ch_elem; eauto].
      unfold key_steps in Hs. destruct (isString E kt) eqn:E1; [destruct Hs|]. destruct (h_impl H kt MText && is_ptr H kt && vnil k) eqn:E2; [destruct Hs|]. destruct Hs as [[= <-]|[]]. eapply ch_key; eauto.
    - assert (G : forall fs1, (forall f, In f fs1 -> In f fs) -> field_steps t ca (VStruct vs) fs1 l -> In (inl y) l -> child H o (t, ca, q, VStruct vs) y).
      { clear F Hi. intros fs1 Hf F. revert Hf. induction F as [|f fs1 l _ _ IH|f ft x fs1 l Sh _ IH]; intros Hf Hi; [destruct Hi | apply IH; [intros; apply Hf; right; assumption | exact Hi]|].
        destruct Hi as [[= <-]|Hi]; [eapply ch_field; eauto; apply Hf; left; reflexivity | apply IH; [intros; apply Hf; right; assumption | exact Hi]]. }
      apply (G fs); auto.
    - apply in_flat_map in Hi. destruct Hi as ([k v] & Hi & Hs). cbn [fst snd] in Hs. apply in_app_iff in Hs. destruct Hs as [Hs|Hs].
      + destruct k as [| | | | | |kt x| | | | | | |]; cbn [sync_key_steps] in Hs; try (destruct Hs; fail); [destruct Hs as [Hs|[]]; discriminate|].
        destruct (isString E kt) eqn:E1; [destruct Hs|]. destruct (isInteger E kt || h_impl H kt MText) eqn:E2; destruct Hs as [Hs|[]]; [injection Hs as <-|discriminate]. eapply ch_skey; eauto.
      + destruct v as [| | | | | |vt x| | | | | | |]; cbn [sync_val_steps] in Hs; try (destruct Hs; fail). destruct Hs as [[= <-]|[]]. eapply ch_sval; eauto.
  Qed.
  Lemma steps_key x l e : steps x l -> In (inr e) l -> raises H vcall o x e.
  Proof.
    intros St Hi. destruct St as [t ca q e0 v P U|t ca q td v P U|t ca q e0 vs P U B|t ca q n e0 vs P U B|t ca q kt et es P U K|t ca q fs0 n fs vs l P U Sf F|ca q es].
    - destruct Hi as [Hi|[]]; discriminate.
    - destruct Hi as [Hi|[]]; discriminate.
    - apply in_map_iff in Hi. destruct Hi as (v & Hi & _). discriminate.
    - apply in_map_iff in Hi. destruct Hi as (v & Hi & _). discriminate.
    - apply in_flat_map in Hi. destruct Hi as ([k v] & Hi & Hs). cbn [fst snd] in Hs. apply in_app_iff in Hs. destruct Hs as [Hs|[Hs|[]]]; [|discriminate].
      unfold key_steps in Hs. destruct (isString E kt); [destruct Hs|]. destruct (h_impl H kt MText && is_ptr H kt && vnil k); [destruct Hs|]. destruct Hs as [Hs|[]]. discriminate.
    - exfalso. clear - F Hi. induction F as [|f fs l _ _ IH|f ft x fs l _ _ IH]; [destruct Hi | auto|]. destruct Hi as [Hi|Hi]; [discriminate | auto].
    - apply in_flat_map in Hi. destruct Hi as ([k v] & Hi & Hs). cbn [fst snd] in Hs. apply in_app_iff in Hs. destruct Hs as [Hs|Hs].
      + destruct k as [| | | | | |kt x| | | | | | |]; cbn [sync_key_steps] in Hs; try (destruct Hs; fail); [destruct Hs as [[= <-]|[]]; eapply ra_nilkey; eauto|].
        destruct (isString E kt) eqn:E1; [destruct Hs|]. destruct (isInteger E kt || h_impl H kt MText) eqn:E2; destruct Hs as [Hs|[]]; [discriminate | injection Hs as <-]. apply orb_false_elim in E2. destruct E2. eapply ra_keytype; eauto.
      + destruct v as [| | | | | |vt x| | | | | | |]; cbn [sync_val_steps] in Hs; try (destruct Hs; fail). destruct Hs as [Hs|[]]. discriminate.
  Qed.

  (** ** The first error of a sequence *)
  Definition fine_entry (kv : vres * vres) : Prop := exists kb vb, kv = (VRet kb None, VRet vb None).
  Definition bad_entry (kv : vres * vres) (e : gerr) : Prop := (exists b, fst kv = VRet b (Some e)) \/ exists kb b, kv = (VRet kb None, VRet b (Some e)).
  Lemma vunsorted_first es : forall first out0 out e, vunsorted es first out0 = VRet out (Some e) -> exists es1 kv es2, es = es1 ++ kv :: es2 /\ Forall fine_entry es1 /\ bad_entry kv e.
  Proof.
    induction es as [|[k v] es IH]; intros first out0 out e; cbn [vunsorted]; [discriminate|]. unfold vthen. destruct k as [kb [ke|]| |]; try discriminate.
    - intros [= _ <-]. exists [], (VRet kb (Some ke), v), es. repeat split; [constructor|]. left. eexists. reflexivity.
    - destruct v as [vb [ve|]| |]; try discriminate.
      + intros [= _ <-]. exists [], (VRet kb None, VRet vb (Some ve)), es. repeat split; [constructor|]. right. eauto.
      + intros Hr. destruct (IH _ _ _ _ Hr) as (es1 & kv & es2 & -> & F & B). exists ((VRet kb None, VRet vb None) :: es1), kv, es2. repeat split; [|exact B]. constructor; [do 2 eexists; reflexivity | exact F].
  Qed.
  Lemma vfill_first es : forall kvs e, vfill es kvs = VFErr e -> exists es1 kv es2, es = es1 ++ kv :: es2 /\ Forall fine_entry es1 /\ bad_entry kv e.
  Proof.
    induction es as [|[k v] es IH]; intros kvs e; cbn [vfill]; [discriminate|]. destruct k as [kb [ke|]| |]; try discriminate.
    - intros [= <-]. exists [], (VRet kb (Some ke), v), es. repeat split; [constructor|]. left. eexists. reflexivity.
    - destruct (length kb <? 2)%nat; [discriminate|]. destruct v as [vb [ve|]| |]; try discriminate.
      + intros Hr. injection Hr as <-. exists [], (VRet kb None, VRet vb (Some ve)), es. repeat split; [constructor|]. right. eauto.
      + intros Hr. destruct (IH _ _ Hr) as (es1 & kv & es2 & -> & F & B). exists ((VRet kb None, VRet vb None) :: es1), kv, es2. repeat split; [|exact B]. constructor; [do 2 eexists; reflexivity | exact F].
  Qed.
  Lemma ventries_first {A} (f : A -> vres * vres) es out e : ventries H o (map f es) = VRet out (Some e) ->
    exists es1 x es2, es = es1 ++ x :: es2 /\ (forall y, In y es1 -> fine_entry (f y)) /\ bad_entry (f x) e.
  Proof.
    intros Hr. assert (X : exists es1 kv es2, map f es = es1 ++ kv :: es2 /\ Forall fine_entry es1 /\ bad_entry kv e).
    { revert Hr. unfold ventries, vthen. destruct (opt unsortedMap).
      - destruct (vunsorted (map f es) true [123]) as [b [e'|]| |] eqn:Eu; try discriminate. intros [= _ <-]. eapply vunsorted_first; eauto.
      - unfold vsorted. destruct (vfill (map f es) []) as [r|e'| |] eqn:Ef; try discriminate. intros [= _ <-]. eapply vfill_first; eauto. }
    destruct X as (l1 & kv & l2 & Em & F & B). apply map_eq_app in Em. destruct Em as (es1 & r & -> & <- & Em). apply map_eq_cons in Em. destruct Em as (x & es2 & -> & <- & <-).
    exists es1, x, es2. repeat split; [|exact B]. intros y Hy. rewrite Forall_forall in F. apply F. apply List.in_map. exact Hy.
  Qed.
  Lemma velems_first rec e0 ca vs : forall first out0 out e, velems rec e0 ca vs first out0 = VRet out (Some e) ->
    exists vs1 v vs2 b, vs = vs1 ++ v :: vs2 /\ (forall x, In x vs1 -> exists b, rec e0 ca false x = VRet b None) /\ rec e0 ca false v = VRet b (Some e).
  Proof.
    induction vs as [|v vs IH]; intros first out0 out e; cbn [velems]; [destruct first; discriminate|]. unfold vthen. destruct (rec e0 ca false v) as [b [er|]| |] eqn:Er; try discriminate.
    - intros [= _ <-]. exists [], v, vs, b. repeat split; [intros x [] | exact Er].
    - intros Hr. destruct (IH _ _ _ _ Hr) as (vs1 & v' & vs2 & b' & -> & F & B). exists (v :: vs1), v', vs2, b'. repeat split; [|exact B]. intros x [<-|Hx]; eauto.
  Qed.
  Definition vnode (n : nat) (y : node) : vres := let '(t, ca, q, v) := y in venc H vcall o n t ca q v.
  Lemma fields_all t ca v fs : (forall f, In f fs -> hidden H o t v f \/ exists ft x, shown H o t v f ft x) -> exists l, field_steps t ca v fs l.
  Proof.
    induction fs as [|f fs IH]; intros A; [exists []; constructor|]. destruct (IH (fun g Hg => A g (or_intror Hg))) as [l Hl].
    destruct (A f (or_introl eq_refl)) as [Hd|(ft & x & Sh)]; [exists l; apply fi_hidden; assumption | eexists; eapply fi_shown; eauto].
  Qed.
  Lemma vfields_first n t ca v fs : (forall f, In f fs -> hidden H o t v f \/ exists ft x, shown H o t v f ft x) ->
    forall first out0 out e, vfields H o (venc H vcall o n) t ca v fs first out0 = VRet out (Some e) ->
    exists l1 y l2 b, field_steps t ca v fs (l1 ++ inl y :: l2) /\ (forall s, In s l1 -> exists z b, s = inl z /\ vnode n z = VRet b None) /\ vnode n y = VRet b (Some e).
  Proof.
    induction fs as [|f fs IH]; intros A first out0 out e Hr; cbn [vfields] in Hr; [destruct first; discriminate|]. specialize (IH (fun g Hg => A g (or_intror Hg))).
    assert (Next : hidden H o t v f -> forall first out0, vfields H o (venc H vcall o n) t ca v fs first out0 = VRet out (Some e) ->
      exists l1 y l2 b, field_steps t ca v (f :: fs) (l1 ++ inl y :: l2) /\ (forall s, In s l1 -> exists z b, s = inl z /\ vnode n z = VRet b None) /\ vnode n y = VRet b (Some e)).
    { intros Hd fi o0 Hx. destruct (IH _ _ _ _ Hx) as (l1 & y & l2 & b & B1 & B2 & B3). exists l1, y, l2, b. split; [apply fi_hidden; assumption | auto]. }
    destruct (isDeniedField o (f_name f)) eqn:Ed; [eapply Next; eauto; left; apply isDeniedField_spec; exact Ed|]. destruct (negb (right_seq H t f)); [discriminate|].
    destruct (vget (f_index f) v) as [[x|]|] eqn:Ev; [|eapply Next; eauto; right; left; exact Ev | discriminate]. destruct (type_by_index H t (f_index f)) as [ft|] eqn:Et; [|discriminate].
    destruct (f_omitNil f && vnil x) eqn:En; [eapply Next; eauto; right; right; exists ft, x; split; [split; assumption | apply dropped_spec; rewrite En; reflexivity]|].
    destruct (f_omitEmpty f && vempty x) eqn:Ee; [eapply Next; eauto; right; right; exists ft, x; split; [split; assumption | apply dropped_spec; rewrite Ee; apply orb_true_r]|].
    assert (Sh : shown H o t v f ft x). { split; [rewrite <- isDeniedField_spec; congruence|]. split; [split; assumption|]. rewrite <- dropped_spec, En, Ee. discriminate. }
    cbn zeta in Hr. fold (quoted H f ft) in Hr. destruct (venc H vcall o n ft ca (quoted H f ft) x) as [b [e'|]| |] eqn:Er; try discriminate.
    - injection Hr as _ <-. destruct (fields_all t ca v fs (fun g Hg => A g (or_intror Hg))) as [l Hl]. exists [], (ft, ca, quoted H f ft, x), l, b. split; [eapply fi_shown; eauto|]. split; [intros s [] | exact Er].
    - destruct (IH _ _ _ _ Hr) as (l1 & y & l2 & b' & B1 & B2 & B3). exists (inl (ft, ca, quoted H f ft, x) :: l1), y, l2, b'. split; [eapply (fi_shown t ca v f ft x); eauto|]. split; [|exact B3].
      intros s [<-|Hs]; [exists (ft, ca, quoted H f ft, x), b; auto | auto].
  Qed.

  Lemma no_steps_self x e : raises H vcall o x e -> (forall ca q es, x <> (TSyncMap, ca, q, VSync es)) -> forall l, ~ steps x l.
  Proof.
    intros R N l St.
    destruct R; inversion St; subst; try (eapply N; reflexivity);
      repeat match goal with P : DocSpec.plain _ _ _ |- _ => destruct P as [? ?] end; unfold opaque in *; try congruence;
      try (match goal with U : under _ _ = _, O : (match under _ _ with _ => _ end) = true |- _ => rewrite U in O; discriminate end).
  Qed.

  Lemma fails_at x l1 y l2 e n b : held H m x -> steps x (l1 ++ inl y :: l2) -> (forall s, In s l1 -> exists z b, s = inl z /\ vnode n z = VRet b None) ->
    (held H m y -> vnode n y = VRet b (Some e) -> fails y e) -> vnode n y = VRet b (Some e) -> fails x e.
  Proof.
    intros Hh St F IH Hy. eapply fa_part; [exact St | |].
    - intros s Hs. destruct (F s Hs) as (z & b' & -> & Hz). exists z. split; [reflexivity|]. apply gives_encodable.
      + eapply (child_held H vcall OK o m); [exact Hh|]. eapply steps_child; [exact St|]. apply in_app_iff. left. exact Hs.
      + destruct z as [[[t ca] q] v]. exists n, b'. exact Hz.
    - apply IH; [|exact Hy]. eapply (child_held H vcall OK o m); [exact Hh|]. eapply steps_child; [exact St|]. apply in_app_iff. right. left. reflexivity.
  Qed.

  Theorem first_error n : forall t ca q v out e, held H m (t, ca, q, v) -> venc H vcall o n t ca q v = VRet out (Some e) -> fails (t, ca, q, v) e.
  Proof.
    induction n as [|n IH]; intros t ca q v out e Hh Hr; [discriminate|].
    assert (IH' : forall y b e, held H m y -> vnode n y = VRet b (Some e) -> fails y e) by (intros [[[t' ca'] q'] v'] b e'; apply IH).
    destruct (error_raised H vcall o OK (S n) t ca q v out e Hr) as (y0 & Hp0 & Hr0).
    assert (Self : raises H vcall o (t, ca, q, v) e -> (forall ca' q' es, (t, ca, q, v) <> (TSyncMap, ca', q', VSync es)) -> fails (t, ca, q, v) e) by (intros R N; apply fa_self; [exact (no_steps_self _ _ R N) | exact R]).
    (* no composite: the error is its own *)
    assert (Leaf : (forall l, ~ steps (t, ca, q, v) l) -> (forall y, ~ child H o (t, ca, q, v) y) -> fails (t, ca, q, v) e).
    { intros N1 N2. apply fa_self; [exact N1|]. inversion Hp0 as [|? y ? C]; subst; [exact Hr0 | destruct (N2 _ C)]. }
    cbn [venc] in Hr.
    destruct (native t) eqn:Nt.
    - destruct t; try discriminate Nt; try (apply Leaf; [intros l St; inversion St; subst | intros y C; inversion C; subst]; match goal with P : DocSpec.plain _ _ _ |- _ => destruct P; discriminate end).
      cbn [vnative] in Hr. destruct v; try discriminate Hr.
      apply (ventries_first (fun kv => (vsync_key H o (venc H vcall o n) n (fst kv), vsync_val H (venc H vcall o n) n (snd kv)))) in Hr.
      destruct Hr as (es1 & [k v] & es2 & -> & F & B). cbn [fst snd] in B.
      assert (St := sp_sync ca q (es1 ++ (k, v) :: es2)). rewrite flat_map_app in St. cbn [flat_map fst snd] in St.
      set (g := fun kv : val * val => sync_key_steps (fst kv) ++ sync_val_steps (snd kv)) in *.
      assert (F' : forall s, In s (flat_map g es1) -> exists z b, s = inl z /\ vnode n z = VRet b None).
      { intros s Hs. apply in_flat_map in Hs. destruct Hs as ([k1 v1] & Hi & Hs). destruct (F _ Hi) as (kb & vb & E0). cbn [fst snd] in E0. injection E0 as Ek Ev. unfold g in Hs. cbn [fst snd] in Hs. apply in_app_iff in Hs. destruct Hs as [Hs|Hs].
        - destruct k1 as [| | | | | |kt x| | | | | | |]; cbn [sync_key_steps] in Hs; try (destruct Hs; fail); [discriminate|]. cbn [vsync_key] in Ek.
          destruct (isString E kt) eqn:E1; [destruct Hs|]. cbn [negb andb] in Ek. destruct (isInteger E kt) eqn:E2, (h_impl H kt MText) eqn:E3; cbn [negb andb orb] in *; try discriminate Ek; destruct Hs as [<-|[]];
            apply vquote_if_ret in Ek; destruct Ek as [b Ek]; apply vany_ret in Ek; exists (kt, is_ptr H kt, false, x), b; split; [reflexivity | exact Ek | reflexivity | exact Ek | reflexivity | exact Ek].
        - destruct v1 as [| | | | | |vt x| | | | | | |]; cbn [sync_val_steps] in Hs; try (destruct Hs; fail). destruct Hs as [<-|[]]. cbn [vsync_val] in Ev. apply vany_ret in Ev. exists (vt, is_ptr H vt, false, x), vb. auto. }
      destruct B as [[b Hb]|(kb & b & E0)].
      + cbn [fst] in Hb. destruct k as [| | | | | |kt x| | | | | | |]; cbn [vsync_key] in Hb; try discriminate Hb.
        * injection Hb as _ <-. eapply fa_key; [exact St|]. intros s Hs. destruct (F' s Hs) as (z & b' & -> & Hz). exists z. split; [reflexivity|]. apply gives_encodable; [|destruct z as [[[t ca'] q'] v']; exists n, b'; exact Hz].
          eapply (child_held H vcall OK o m); [exact Hh|]. eapply steps_child; [exact St|]. apply in_app_iff. left. exact Hs.
        * cbn [sync_key_steps] in St. destruct (isString E kt) eqn:E1; [destruct x; discriminate|]. cbn [negb andb] in Hb.
          destruct (isInteger E kt) eqn:E2, (h_impl H kt MText) eqn:E3; cbn [negb andb orb] in *;
            try (apply vquote_if_ret in Hb; destruct Hb as [b' Hb]; apply vany_ret in Hb; eapply fails_at; [exact Hh | exact St | exact F' | intros; eapply IH'; eauto | exact Hb]).
          injection Hb as _ <-. eapply fa_key; [exact St|]. intros s Hs. destruct (F' s Hs) as (z & b' & -> & Hz). exists z. split; [reflexivity|]. apply gives_encodable; [|destruct z as [[[t ca'] q'] v']; exists n, b'; exact Hz].
          eapply (child_held H vcall OK o m); [exact Hh|]. eapply steps_child; [exact St|]. apply in_app_iff. left. exact Hs.
      + injection E0 as Ek Ev. destruct v as [| | | | | |vt x| | | | | | |]; cbn [vsync_val] in Ev; try discriminate Ev. apply vany_ret in Ev. cbn [sync_val_steps] in St.
        assert (St' := St). rewrite <- app_assoc, app_assoc in St'. cbn [app] in St'.
        eapply (fails_at _ (flat_map g es1 ++ sync_key_steps k) (vt, is_ptr H vt, false, x)); [exact Hh | exact St' | | intros; eapply IH'; eauto | exact Ev].
        intros s Hs. apply in_app_iff in Hs. destruct Hs as [Hs|Hs]; [exact (F' s Hs)|].
        destruct k as [| | | | | |kt y| | | | | | |]; cbn [sync_key_steps] in Hs; try (destruct Hs; fail); [discriminate|]. cbn [vsync_key] in Ek.
        destruct (isString E kt) eqn:E1; [destruct Hs|]. cbn [negb andb] in Ek. destruct (isInteger E kt) eqn:E2, (h_impl H kt MText) eqn:E3; cbn [negb andb orb] in *; try discriminate Ek; destruct Hs as [<-|[]];
          apply vquote_if_ret in Ek; destruct Ek as [b' Ek]; apply vany_ret in Ek; exists (kt, is_ptr H kt, false, y), b'; split; [reflexivity | exact Ek | reflexivity | exact Ek | reflexivity | exact Ek].
    - destruct (method_of H t ca) as [[k hp]|] eqn:Em.
      { apply Leaf; [intros l St; inversion St; subst; try discriminate Nt | intros y C; inversion C; subst; try discriminate Nt]; match goal with P : DocSpec.plain _ _ _ |- _ => destruct P; congruence end. }
      assert (P : DocSpec.plain H t ca) by (split; assumption). unfold vkind in Hr. destruct Hh as [Ht [l0 Hl]]. assert (Hh : held H m (t, ca, q, v)) by (split; eauto).
      destruct (under E t) as [ |ik|fb| | | | | |ms|el|el|an el|kt et|fs|nn| | | | | ] eqn:Eu; try discriminate Hr;
        try (apply Leaf; [intros l St; inversion St; subst; try discriminate Nt; congruence | intros y C; inversion C; subst; try discriminate Nt; congruence]).
      + destruct v; try (destruct ms; discriminate). destruct ms; [discriminate|]. apply vany_ret in Hr. eapply (fails_at _ [] _ []); [exact Hh | eapply sp_iface; eauto | intros s [] | intros; eapply IH'; eauto | exact Hr].
      + destruct v; try discriminate. eapply (fails_at _ [] _ []); [exact Hh | eapply sp_ptr; eauto | intros s [] | intros; eapply IH'; eauto | exact Hr].
      + destruct v; try discriminate; [destruct (byte_elem H el); discriminate|]. destruct (byte_elem H el) eqn:Eb; [destruct (vbytes vs); discriminate|].
        apply velems_first in Hr. destruct Hr as (vs1 & x & vs2 & b & -> & F & B). assert (St := sp_slice t ca q el (vs1 ++ x :: vs2) P Eu Eb). rewrite map_app in St. cbn [map] in St.
        eapply fails_at; [exact Hh | exact St | | intros; eapply IH'; eauto | exact B]. intros s Hs. apply in_map_iff in Hs. destruct Hs as (y & <- & Hy). destruct (F y Hy) as [b' Hb]. exists (el, true, false, y), b'. auto.
      + destruct v; try discriminate. destruct (byte_elem H el && opt byteArrayAsString) eqn:Eb; [destruct (vbytes vs); discriminate|].
        apply velems_first in Hr. destruct Hr as (vs1 & x & vs2 & b & -> & F & B). assert (St := sp_array t ca q an el (vs1 ++ x :: vs2) P Eu Eb). rewrite map_app in St. cbn [map] in St.
        eapply fails_at; [exact Hh | exact St | | intros; eapply IH'; eauto | exact B]. intros s Hs. apply in_map_iff in Hs. destruct Hs as (y & <- & Hy). destruct (F y Hy) as [b' Hb]. exists (el, ca, false, y), b'. auto.
      + destruct (key_ok H kt) eqn:Ek; cbn [negb] in Hr; [|injection Hr as _ <-; apply Self; [eapply ra_key; eauto | intros ? ? ? [= -> _ _ _]; discriminate Nt]].
        destruct v; try discriminate. destruct es as [|e0 es0]; [discriminate|]. set (es := e0 :: es0) in *. clearbody es.
        apply (ventries_first (fun kv => (vkey H o (venc H vcall o n) kt (fst kv), venc H vcall o n et false false (snd kv)))) in Hr.
        destruct Hr as (es1 & [k v] & es2 & -> & F & B). cbn [fst snd] in B.
        assert (St := sp_map t ca q kt et (es1 ++ (k, v) :: es2) P Eu Ek). rewrite flat_map_app in St. cbn [flat_map fst snd] in St.
        set (g := fun kv : val * val => key_steps kt (fst kv) ++ [inl (et, false, false, snd kv)]) in *.
        assert (K : forall k1 kb, vkey H o (venc H vcall o n) kt k1 = VRet kb None -> forall s, In s (key_steps kt k1) -> exists z b, s = inl z /\ vnode n z = VRet b None).
        { intros k1 kb Hk s Hs. unfold vkey in Hk. unfold key_steps in Hs. destruct (isString E kt); [destruct Hs|]. destruct (h_impl H kt MText && is_ptr H kt && vnil k1); [destruct Hs|]. destruct Hs as [<-|[]].
          apply vquote_if_ret in Hk. destruct Hk as [b Hk]. exists (kt, false, false, k1), b. auto. }
        assert (F' : forall s, In s (flat_map g es1) -> exists z b, s = inl z /\ vnode n z = VRet b None).
        { intros s Hs. apply in_flat_map in Hs. destruct Hs as ([k1 v1] & Hi & Hs). destruct (F _ Hi) as (kb & vb & E0). cbn [fst snd] in E0. injection E0 as E1 E2. unfold g in Hs. cbn [fst snd] in Hs. apply in_app_iff in Hs. destruct Hs as [Hs|[<-|[]]].
          - eapply K; eauto.
          - exists (et, false, false, v1), vb. auto. }
        destruct B as [[b Hb]|(kb & b & E0)].
        * cbn [fst] in Hb. unfold vkey in Hb. unfold key_steps at 1 in St. destruct (isString E kt) eqn:Es; [destruct k; discriminate|]. destruct (h_impl H kt MText && is_ptr H kt && vnil k) eqn:Ex; [discriminate|].
          apply vquote_if_ret in Hb. destruct Hb as [b' Hb]. eapply fails_at; [exact Hh | exact St | exact F' | intros; eapply IH'; eauto | exact Hb].
        * injection E0 as E1 E2. assert (St' := St). rewrite <- app_assoc, app_assoc in St'. cbn [app] in St'.
          eapply (fails_at _ (flat_map g es1 ++ key_steps kt k) (et, false, false, v)); [exact Hh | exact St' | | intros; eapply IH'; eauto | exact E2].
          intros s Hs. apply in_app_iff in Hs. destruct Hs as [Hs|Hs]; [exact (F' s Hs) | eapply K; eauto].
      + destruct v; try discriminate. unfold vstruct in Hr. destruct (fields_of H t); [discriminate|]. destruct (structFields H n t) as [sf|] eqn:Es; [|discriminate].
        apply vfields_first in Hr.
        * destruct Hr as (l1 & y & l2 & b & Fs & F & B). eapply fails_at; [exact Hh | eapply sp_struct; eauto | exact F | intros; eapply IH'; eauto | exact B].
        * intros f Hf. destruct (isDeniedField o (f_name f)) eqn:Ed; [left; left; apply isDeniedField_spec; exact Ed|].
          destruct (field_value_or_nil H vcall OK m n t sf f _ l0 Ht Es Hf Hl) as [X|(ft & x & Fv)]; [left; right; left; exact X|].
          destruct ((f_omitNil f && vnil x) || (f_omitEmpty f && vempty x)) eqn:Edr; [left; right; right; exists ft, x; split; [exact Fv | apply dropped_spec; exact Edr]|].
          right. exists ft, x. split; [rewrite <- isDeniedField_spec; congruence|]. split; [exact Fv|]. rewrite <- dropped_spec. congruence.
  Qed.

  (** ** There is one error *)
  Lemma fails_raises x e : fails x e -> exists y, part H o x y /\ raises H vcall o y e.
  Proof.
    induction 1 as [x e N R|x l1 e l2 St F|x l1 y l2 e St F _ (z & Hp & Hz)].
    - exists x. split; [constructor | exact R].
    - exists x. split; [constructor|]. eapply steps_key; [exact St|]. apply in_app_iff. right. left. reflexivity.
    - exists z. split; [|exact Hz]. eapply part_step; [|exact Hp]. eapply steps_child; [exact St|]. apply in_app_iff. right. left. reflexivity.
  Qed.

  Lemma self_det x e e' : (forall l, ~ steps x l) -> raises H vcall o x e -> raises H vcall o x e' -> e = e'.
  Proof.
    intros N R R'. destruct R; inversion R'; subst; auto; try (match goal with P : native _ = false |- _ => discriminate P end);
      try (match goal with P : DocSpec.plain _ _ _ |- _ => destruct P; discriminate end);
      repeat match goal with P : DocSpec.plain _ _ _ |- _ => destruct P as [? ?] end; try congruence;
      try (unfold opaque in *; match goal with U : under _ _ = _, O : (match under _ _ with _ => _ end) = true |- _ => rewrite U in O; discriminate end);
      try (exfalso; eapply N; apply sp_sync).
    - assert (mins = mins0) by (destruct mins, mins0; try reflexivity; exfalso; unfold DurationMinutes, DurationSeconds in *; congruence). subst. reflexivity.
    - match goal with A : method_of _ _ _ = Some (?k, ?hp), B : method_of _ _ _ = Some (?k', ?hp') |- _ => rewrite A in B; injection B as <- <- end.
      match goal with A : receiver _ _ _ _ _ _, B : receiver _ _ _ _ _ _ |- _ => destruct (receiver_det H _ _ _ _ _ _ _ A B) as [<- <-] end. congruence.
    - match goal with A : method_of _ _ _ = Some _, B : method_of _ _ _ = Some _ |- _ => rewrite A in B; injection B as -> -> end.
      match goal with A : receiver _ _ _ _ _ _, B : receiver _ _ _ _ _ _ |- _ => destruct (receiver_det H _ _ _ _ _ _ _ A B) as [<- <-] end. cbn [ctx_of] in *. congruence.
    - match goal with A : method_of _ _ _ = Some _, B : method_of _ _ _ = Some _ |- _ => rewrite A in B; injection B as <- <- end.
      match goal with A : receiver _ _ _ _ _ _, B : receiver _ _ _ _ _ _ |- _ => destruct (receiver_det H _ _ _ _ _ _ _ A B) as [<- <-] end. cbn [ctx_of] in *. congruence.
    - match goal with A : method_of _ _ _ = Some _, B : method_of _ _ _ = Some _ |- _ => rewrite A in B; injection B as <- end. reflexivity.
  Qed.

  Lemma field_steps_det t ca v fs : forall l l', field_steps t ca v fs l -> field_steps t ca v fs l' -> l = l'.
  Proof.
    induction fs as [|f fs IH]; intros l l' A B; inversion A as [|? ? ? Ha Ta|? fa xa ? ? Ha Ta]; subst; inversion B as [|? ? ? Hb Tb|? fb xb ? ? Hb Tb]; subst; auto.
    - destruct (shown_not_hidden H o _ _ _ _ _ Hb Ha).
    - destruct (shown_not_hidden H o _ _ _ _ _ Ha Hb).
    - destruct Ha as (_ & [A1 A2] & _), Hb as (_ & [B1 B2] & _). assert (fa = fb) by congruence. assert (xa = xb) by congruence. subst. f_equal. auto.
  Qed.
  Lemma steps_det x l l' : steps x l -> steps x l' -> l = l'.
  Proof.
    intros A B. destruct A as [t ca q e v P U|t ca q td v P U|t ca q e vs P U Be|t ca q n e vs P U Be|t ca q kt et es P U K|t ca q fs0 n fs vs l P U Sf F|ca q es]; inversion B as [? ? ? ? ? P' U'|? ? ? ? ? P' U'|? ? ? ? ? P' U'|? ? ? ? ? ? P' U'|? ? ? ? ? ? P' U'|? ? ? fs0' n' fs' ? ? P' U' Sf' F'|]; subst; try reflexivity;
      try (rewrite U in U'; injection U'; intros; subst; reflexivity).
    - assert (fs = fs') by (apply (structFields_mono H n (Nat.max n n')) in Sf; [|lia]; apply (structFields_mono H n' (Nat.max n n')) in Sf'; [|lia]; congruence). subst. eapply field_steps_det; eauto.
  Qed.

  Definition fine_step (s : step) : Prop := exists y, s = inl y /\ encodable y.
  Lemma first_unique (l1 : list step) : forall s l2 l1' s' l2', l1 ++ s :: l2 = l1' ++ s' :: l2' -> (forall x, In x l1 -> fine_step x) -> (forall x, In x l1' -> fine_step x) -> ~ fine_step s -> ~ fine_step s' -> s = s'.
  Proof.
    induction l1 as [|a l1 IH]; intros s l2 [|a' l1'] s' l2' Eq F F' B B'; cbn [app] in Eq; injection Eq as E1 E2.
    - exact E1.
    - destruct B. rewrite E1. apply F'. left. reflexivity.
    - destruct B'. rewrite <- E1. apply F. left. reflexivity.
    - eapply (IH s l2 l1' s' l2'); eauto; intros x Hx; [apply F | apply F']; right; exact Hx.
  Qed.
  Lemma fails_det x e : fails x e -> forall e', fails x e' -> e = e'.
  Proof.
    assert (Bk : forall e0, ~ fine_step (inr e0)) by (intros e0 (y & Y & _); discriminate).
    assert (Bp : forall y e0, fails y e0 -> ~ fine_step (inl y)).
    { intros y e0 Fy (y' & [= <-] & En). destruct (fails_raises y e0 Fy) as (z & Hp & Hz). exact (En z e0 Hp Hz). }
    induction 1 as [x e N R|x l1 e l2 St F|x l1 y l2 e St F Fy IH]; intros e' Fe; inversion Fe as [x' e0 N' R'|x' l1' e0 l2' St' F'|x' l1' y' l2' e0 St' F' Fy']; subst.
    - eapply self_det; eauto.
    - destruct (N _ St').
    - destruct (N _ St').
    - destruct (N' _ St).
    - assert (X : @inr node gerr e = inr e') by (eapply first_unique; [exact (steps_det _ _ _ St St') | exact F | exact F' | auto | auto]). congruence.
    - assert (X : @inr node gerr e = inl y') by (eapply first_unique; [exact (steps_det _ _ _ St St') | exact F | exact F' | auto | eauto]). discriminate.
    - destruct (N' _ St).
    - assert (X : @inl node gerr y = inr e') by (eapply first_unique; [exact (steps_det _ _ _ St St') | exact F | exact F' | eauto | auto]). discriminate.
    - assert (X : @inl node gerr y = inl y') by (eapply first_unique; [exact (steps_det _ _ _ St St') | exact F | exact F' | eauto | eauto]). injection X as <-. auto.
  Qed.
End Failures.

(** Marshal succeeds exactly when nothing in the value raises an error, *)
Theorem C65_succeeds H vcall m t w v opts o : host_ok H vcall -> call H m t w v opts o ->
  (exists out, marshal_returns H m (Some (t, w)) opts (MOk out)) <-> forall y e, part H o (t, is_ptr H t, false, v) y -> ~ raises H vcall o y e.
Proof.
  intros OK C. destruct (call_returns H vcall OK m t w v opts o C) as (out & err & A & B). apply encodes_inv in A. destruct A as [n Hn]. assert (Hh := call_held H vcall OK m t w v opts o C). split.
  - intros (out' & R). apply B in R. destruct err as [e|]; [discriminate|]. apply (gives_encodable H vcall o OK m); [exact Hh|]. exists n, out. exact Hn.
  - intros En. destruct err as [e|]; [|exists out; apply B; reflexivity]. exfalso. destruct (error_raised H vcall o OK n _ _ _ _ _ _ Hn) as (y & Hp & Hr). exact (En y e Hp Hr).
Qed.
(** and otherwise returns the error of the first thing that fails. *)
Theorem C65_first H vcall m t w v opts o : host_ok H vcall -> call H m t w v opts o ->
  forall e, marshal_returns H m (Some (t, w)) opts (MErr e) <-> fails H vcall o (t, is_ptr H t, false, v) e.
Proof.
  intros OK C e. destruct (call_returns H vcall OK m t w v opts o C) as (out & err & A & B). apply encodes_inv in A. destruct A as [n Hn]. assert (Hh := call_held H vcall OK m t w v opts o C). split.
  - intros R. apply B in R. destruct err as [e'|]; [|discriminate]. injection R as ->. exact (first_error H vcall o OK m n _ _ _ _ _ _ Hh Hn).
  - intros F. apply B. destruct err as [e'|]; [cbn [outcome]; f_equal; eapply (fails_det H vcall o); [exact F | exact (first_error H vcall o OK m n _ _ _ _ _ _ Hh Hn)]|]. exfalso.
    destruct (fails_raises H vcall o _ _ F) as (y & Hp & Hr). eapply (gives_encodable H vcall o OK m _ Hh); [exists n, out; exact Hn | exact Hp | exact Hr].
Qed.

(** ** Types whose values never fail *)
Section Never.
  Variable H : host.
  Variable vcall : mkind -> typ -> val -> option Z -> bytes + Z.
  Variable o : encOpts.
  Notation E := (h_env H).

  Record harmless (t : typ) : Prop := {
    hl_native : t <> TTime /\ t <> TSyncMap /\ (t = TNumber -> has (o_flags o) noNumberValidation = true) /\
                (t = TDuration -> o_durationFmt o <> DurationMinutes /\ o_durationFmt o <> DurationSeconds);
    hl_method : native t = false -> forall ca, method_of H t ca = None;
    hl_kind : match under E t with
              | TFloat _ | TComplex | TChan | TFunc | TUnsafePointer => False
              | TMap kt _ => isString E kt = true \/ isInteger E kt = true \/ h_impl H kt MText = true
              | _ => True
              end
  }.
  Lemma harmless_none t ca q v e : harmless t -> ~ raises H vcall o (t, ca, q, v) e.
  Proof.
    intros [[A1 [A2 [A3 A4]]] B C] R. inversion R; subst; try congruence;
      try (match goal with P : DocSpec.plain _ _ _ |- _ => destruct P as [P1 P2] end).
    - match goal with U : under _ _ = _ |- _ => rewrite U in C; exact C end.
    - destruct (A4 eq_refl) as [X Y]. destruct mins; congruence.
    - rewrite (A3 eq_refl) in *. discriminate.
    - unfold opaque in *. destruct (under E t); try discriminate; exact C.
    - match goal with U : under _ _ = _ |- _ => rewrite U in C end. unfold key_ok in *. match goal with K : _ || _ || _ = false |- _ => rewrite !orb_false_iff in K; destruct K as [[K1 K2] K3] end. destruct C as [C|[C|C]]; congruence.
    - rewrite B in * by assumption. discriminate.
    - rewrite B in * by assumption. discriminate.
  Qed.
End Never.
Theorem C65_never H vcall U D m t w v opts o : host_ok H vcall -> call_opts opts = Some o -> safe_types H o U D -> Forall (harmless H o) U ->
  In t D -> value_of D v -> holds H m t w v -> exists out, marshal_returns H m (Some (t, w)) opts (MOk out).
Proof.
  intros OK Ho Sa Hl Ht Hv Hh. apply (C65_succeeds H vcall m t w v opts o OK (types_call H o U D m t w v opts Sa Ht Hv Hh Ho)).
  intros [[[t' ca] q] v'] e Hp. destruct (part_types H o U D Sa _ _ Hp) as [A _]; [apply (sa_in _ _ _ _ Sa); exact Ht | exact Hv|]. apply harmless_none. rewrite Forall_forall in Hl. apply Hl, A.
Qed.

(** ** Examples *)
(** []interface{}{1, []interface{}{"a", 1i}, math.NaN()} *)
Definition fl_t : typ := TSlice (TIface None).
Definition fl_v : val := VSlice [VIface (TInt KInt) (VInt 1); VIface (TSlice (TIface None)) (VSlice [VIface TString (VStr (lit "a")); VIface TComplex VOpaque]); VIface (TFloat true) (VFloat FNaN)].
Lemma fl_call : call (plainH []) (mem_of (plainH []) fl_t fl_v) fl_t (word_of (plainH []) fl_t fl_v) fl_v [] default_opts.
Proof. apply (plain_call [] 10); reflexivity. Qed.
Example C65_ex_first : marshal_returns (plainH []) (mem_of (plainH []) fl_t fl_v) (Some (fl_t, word_of (plainH []) fl_t fl_v)) [] (MErr (EUnsupportedType TComplex)).
Proof.
  assert (I : forall td x e, raises (plainH []) plainV default_opts (TIface None, true, false, VIface td x) e -> False).
  { intros td x e R. inversion R; subst; try discriminate; match goal with M : method_of _ _ _ = _ |- _ => vm_compute in M; discriminate M end. }
  apply (C65_first (plainH []) plainV _ _ _ _ _ _ (plainH_ok [] eq_refl) fl_call).
  assert (St : forall ca vs, steps (plainH []) default_opts (TSlice (TIface None), ca, false, VSlice vs) (map (fun v => inl (TIface None, true, false, v)) vs)) by (intros ca vs; apply sp_slice; [split; [reflexivity | destruct ca; reflexivity] | reflexivity | reflexivity]).
  eapply (fa_part _ _ _ _ [inl (TIface None, true, false, VIface (TInt KInt) (VInt 1))]); [exact (St false [_; _; _]) | |].
  - intros s [<-|[]]. eexists. split; [reflexivity|]. intros y e Hp R. inversion Hp as [|? y1 ? C1 P1]; subst; [eapply I; exact R|]. inversion C1; subst; try discriminate.
    inversion P1 as [|? y2 ? C2 P2]; subst; [|inversion C2; subst; discriminate]. inversion R; subst; try discriminate; match goal with M : method_of _ _ _ = _ |- _ => vm_compute in M; discriminate M end.
  - eapply (fa_part _ _ _ _ []); [eapply sp_iface; [split; reflexivity | reflexivity] | intros s [] |].
    eapply (fa_part _ _ _ _ [inl (TIface None, true, false, VIface TString (VStr (lit "a")))]); [exact (St _ [_; _]) | |].
    + intros s [<-|[]]. eexists. split; [reflexivity|]. intros y e Hp R. inversion Hp as [|? y1 ? C1 P1]; subst; [eapply I; exact R|]. inversion C1; subst; try discriminate.
      inversion P1 as [|? y2 ? C2 P2]; subst; [|inversion C2; subst; discriminate]. inversion R; subst; try discriminate; match goal with M : method_of _ _ _ = _ |- _ => vm_compute in M; discriminate M end.
    + eapply (fa_part _ _ _ _ []); [eapply sp_iface; [split; reflexivity | reflexivity] | intros s [] |]. apply fa_self; [intros l X; inversion X; subst; discriminate|]. apply ra_kind; [split; reflexivity | reflexivity].
Qed.
Example C65_ex_not : ~ fails (plainH []) plainV default_opts (fl_t, false, false, fl_v) (EUnsupportedValue (special_text FNaN)).
Proof.
  intros F. apply (C65_first (plainH []) plainV _ _ _ _ _ _ (plainH_ok [] eq_refl) fl_call) in F. assert (X := marshal_returns_det _ _ _ _ _ _ F C65_ex_first). discriminate.
Qed.
(** map[string]interface{} with "b" (a complex number) before "a" (NaN): the keys are
    sorted after the values are encoded. *)
Definition fm_t : typ := TMap TString (TIface None).
Definition fm_v : val := VMap [(VStr (lit "b"), VIface TComplex VOpaque); (VStr (lit "a"), VIface (TFloat true) (VFloat FNaN))].
Lemma fm_call : call (plainH []) (mem_of (plainH []) fm_t fm_v) fm_t (word_of (plainH []) fm_t fm_v) fm_v [] default_opts.
Proof. apply (plain_call [] 10); reflexivity. Qed.
Example C65_ex_map : marshal_returns (plainH []) (mem_of (plainH []) fm_t fm_v) (Some (fm_t, word_of (plainH []) fm_t fm_v)) [] (MErr (EUnsupportedType TComplex)).
Proof.
  apply (C65_first (plainH []) plainV _ _ _ _ _ _ (plainH_ok [] eq_refl) fm_call).
  eapply (fa_part _ _ _ _ []); [exact (sp_map (plainH []) default_opts fm_t false false TString (TIface None) [_; _] (conj eq_refl eq_refl) eq_refl eq_refl) | intros s [] |].
  eapply (fa_part _ _ _ _ []); [eapply sp_iface; [split; reflexivity | reflexivity] | intros s [] |]. apply fa_self; [intros l X; inversion X; subst; discriminate|]. apply ra_kind; [split; reflexivity | reflexivity].
Qed.
(** The types of [C29_ex_types] never fail. *)
Example C65_ex_never opts o : call_opts opts = Some o -> exists out, marshal_returns sdH (mem_of sdH (TNamed 1) sd_v) (Some (TNamed 1, word_of sdH (TNamed 1) sd_v)) opts (MOk out).
Proof.
  intros Ho. apply (C65_never sdH plainV sd_U sd_D _ _ _ sd_v opts o sd_ok Ho (sd_safe o)); [|left; reflexivity | exact sd_value | apply (holdsb_ok sdH declb declb_ok _ 10); vm_compute; reflexivity].
  apply Forall_forall. intros t Ht. constructor.
  - unfold sd_U, sd_D in Ht. cbn [app In] in Ht. repeat (destruct Ht as [<-|Ht]; [repeat split; discriminate|]). destruct Ht.
  - intros _ [|]; unfold method_of; cbn; destruct (negb (is_ptr sdH t)); reflexivity.
  - unfold sd_U, sd_D in Ht. cbn [app In] in Ht. repeat (destruct Ht as [<-|Ht]; [vm_compute; auto|]). destruct Ht.
Qed.
Print Assumptions C65_succeeds.
Print Assumptions C65_first.
Print Assumptions C65_never.
