(** Errors.  [raises] says which parts of a value cannot be encoded, and with
    which error; a value has an encoding exactly when none of its parts raises
    an error, and an error that is returned is raised by some part. *)
From Coq Require Import Permutation.
From Verif Require Import Base Utf8 NumberModel NumberProof IntModel JsonSpec OptionsModel EscapeModel JsonParse CompactModel DurationModel CalendarSpec
  TypesModel TypesFacts TagsModel TimeModel TimeProof FloatModel LeafModel LeafProof MemModel FieldsModel FieldsProof Base64Model InstrModel ExecModel ValueModel
  ExecMono ExecProof VencFacts DocSpec EntriesFacts PartFacts DocProof SafeProof.

Definition not_finite (f : fval) : Prop := f = FNaN \/ exists neg, f = FInf neg.

Section Parts.
  Variable H : host.
  Variable vcall : mkind -> typ -> val -> option Z -> bytes + Z.
  Variable o : encOpts.
  Notation E := (h_env H).
  Notation opt := (has (o_flags o)).

  (** A part that cannot be encoded, and the error for it. *)
  Inductive raises : node -> gerr -> Prop :=
  | ra_year ca q g y : is_year ((t_unix g + t_offset g) / 86400 + 719163) y -> y < 0 \/ 9999 < y -> raises (TTime, ca, q, VTime g) EYear
  | ra_float t ca q b f : plain H t ca -> under E t = TFloat b -> not_finite f -> raises (t, ca, q, VFloat f) (EUnsupportedValue (special_text f))
  | ra_dur ca q d (mins : bool) : o_durationFmt o = (if mins then DurationMinutes else DurationSeconds) -> not_finite (h_tofloat H mins d) ->
      raises (TDuration, ca, q, VInt d) (EUnsupportedValue (special_text (h_tofloat H mins d)))
  | ra_num ca q s : opt noNumberValidation = false -> s <> [] -> ~ jnumber s -> raises (TNumber, ca, q, VStr s) (EInvalidNumber s)
  | ra_kind t ca q v : plain H t ca -> opaque H t = true -> raises (t, ca, q, v) (EUnsupportedType t)
  | ra_key t ca q v kt et : plain H t ca -> under E t = TMap kt et -> key_ok H kt = false -> raises (t, ca, q, v) (EUnsupportedType t)
  | ra_method t ca q k hp v td w e : native t = false -> method_of H t ca = Some (k, hp) -> receiver H t hp v td w ->
      vcall k td w (ctx_of o k) = inr e -> raises (t, ca, q, v) (EMarshaler (if hp then TPtr t else t) k (IUser e))
  | ra_json t ca q hp v td w b : native t = false -> method_of H t ca = Some (MJson, hp) -> receiver H t hp v td w ->
      vcall MJson td w None = inl b -> opt noCompact = false -> (forall j, ~ json_text true j b) ->
      raises (t, ca, q, v) (EMarshaler (if hp then TPtr t else t) MJson ISyntax)
  | ra_nilkey ca q es v : In (VNil, v) es -> raises (TSyncMap, ca, q, VSync es) ENilKey
  | ra_keytype ca q es kt k v : In (VIface kt k, v) es -> isString E kt = false -> isInteger E kt = false -> h_impl H kt MText = false ->
      raises (TSyncMap, ca, q, VSync es) (EKeyType kt).

  Definition gives_bytes (x : node) : Prop := let '(t, ca, q, v) := x in exists n out, venc H vcall o n t ca q v = VRet out None.

  (** ** Sequences *)
  Lemma ventries_gives es out : ventries H o es = VRet out None -> exists kvs, Forall2 gives es kvs.
  Proof.
    unfold ventries, vthen. destruct (opt unsortedMap).
    - destruct (vunsorted es true [123]) as [b [e|]| |] eqn:Eu; try discriminate. intros _. apply vunsorted_ret in Eu. destruct Eu as (kvs & Hf & _). eauto.
    - unfold vsorted. destruct (vfill es []) as [r| | |] eqn:Ef; try discriminate. intros _. apply vfill_ret in Ef. destruct Ef as (kvs & Hf & _). eauto.
  Qed.

  Lemma gives_in es kvs : Forall2 gives es kvs -> forall k v, In (k, v) es -> exists kb vb, k = VRet kb None /\ v = VRet vb None.
  Proof.
    induction 1 as [|[k0 v0] [kb vb] es kvs [Hk Hv] _ IH]; intros k v Hi; [destruct Hi|]. destruct Hi as [Hi|Hi]; [|exact (IH k v Hi)].
    injection Hi as <- <-. exists kb, vb. auto.
  Qed.

  Lemma vunsorted_err es : forall first out0 out e, vunsorted es first out0 = VRet out (Some e) ->
    exists k v b, In (k, v) es /\ (k = VRet b (Some e) \/ v = VRet b (Some e)).
  Proof.
    induction es as [|[k v] es IH]; intros first out0 out e; cbn [vunsorted]; [discriminate|]. unfold vthen.
    destruct k as [kb [ke|]| |]; try discriminate.
    - intros [= _ <-]. exists (VRet kb (Some ke)), v, kb. split; [left; reflexivity | left; reflexivity].
    - destruct v as [vb [ve|]| |]; try discriminate.
      + intros [= _ <-]. eexists _, _, vb. split; [left; reflexivity | right; reflexivity].
      + intros Hr. destruct (IH _ _ _ _ Hr) as (k' & v' & b & Hi & Hb). exists k', v', b. split; [right; exact Hi | exact Hb].
  Qed.

  Lemma vfill_err es : forall kvs e, vfill es kvs = VFErr e -> exists k v b, In (k, v) es /\ (k = VRet b (Some e) \/ v = VRet b (Some e)).
  Proof.
    induction es as [|[k v] es IH]; intros kvs e; cbn [vfill]; [discriminate|].
    destruct k as [kb [ke|]| |]; try discriminate.
    - intros [= <-]. eexists _, _, kb. split; [left; reflexivity | left; reflexivity].
    - destruct (length kb <? 2)%nat; [discriminate|]. destruct v as [vb [ve|]| |]; try discriminate.
      + intros Hr. injection Hr as <-. eexists _, _, vb. split; [left; reflexivity | right; reflexivity].
      + intros Hr. destruct (IH _ _ Hr) as (k' & v' & b & Hi & Hb). exists k', v', b. split; [right; exact Hi | exact Hb].
  Qed.

  Lemma ventries_err es out e : ventries H o es = VRet out (Some e) -> exists k v b, In (k, v) es /\ (k = VRet b (Some e) \/ v = VRet b (Some e)).
  Proof.
    unfold ventries, vthen. destruct (opt unsortedMap).
    - destruct (vunsorted es true [123]) as [b [e'|]| |] eqn:Eu; try discriminate. intros [= _ <-]. eapply vunsorted_err; eauto.
    - unfold vsorted. destruct (vfill es []) as [r|e'| |] eqn:Ef; try discriminate. intros [= _ <-]. eapply vfill_err; eauto.
  Qed.

  Lemma forall2_in {A B} (R : A -> B -> Prop) l l' : Forall2 R l l' -> forall x, In x l -> exists y, R x y.
  Proof. induction 1; intros z Hz; [destruct Hz|]. destruct Hz as [->|Hz]; eauto. Qed.

  Lemma vquote_if_ret q r out err : vquote_if q r = VRet out err -> exists b, r = VRet b err.
  Proof. destruct q; cbn [vquote_if]; [|eauto]. destruct r as [b [e|]| |]; cbn [vquote]; try discriminate; intros [= _ <-]; eauto. Qed.

  Section Rec.
  Variable rec : typ -> bool -> bool -> val -> vres.

  Lemma vany_ret n t v out err : vany H rec n t v = VRet out err -> rec t (is_ptr H t) false v = VRet out err.
  Proof.
    unfold vany. destruct (is_direct H n t) as [d|]; [|discriminate]. destruct (isInlined H n t) as [i|]; [|discriminate].
    destruct (_ || _); [exact (fun x => x) | discriminate].
  Qed.

  (** Fields: every field that is shown is encoded. *)
  Lemma vfields_shown t ca v fs : forall first out0 out, vfields H o rec t ca v fs first out0 = VRet out None ->
    forall f ft x, In f fs -> shown H o t v f ft x -> exists b, rec ft ca (quoted H f ft) x = VRet b None.
  Proof.
    induction fs as [|f0 fs IH]; intros first out0 out Hr f ft x Hi Hs; [destruct Hi|]. cbn [vfields] in Hr.
    assert (Next : forall first out0, vfields H o rec t ca v fs first out0 = VRet out None -> In f fs -> exists b, rec ft ca (quoted H f ft) x = VRet b None)
      by (intros; eapply IH; eauto).
    destruct Hi as [->|Hi].
    - destruct Hs as (Nd & (Ev & Et) & Hdr). rewrite <- isDeniedField_spec in Nd. rewrite <- dropped_spec in Hdr.
      destruct (isDeniedField o (f_name f)); [destruct (Nd eq_refl)|]. destruct (negb (right_seq H t f)); [discriminate|].
      rewrite Ev, Et in Hr. destruct (f_omitNil f && vnil x); [destruct (Hdr eq_refl)|]. destruct (f_omitEmpty f && vempty x); [destruct Hdr; apply orb_true_r|].
      cbn zeta in Hr. fold (quoted H f ft) in Hr. destruct (rec ft ca (quoted H f ft) x) as [b [e|]| |]; try discriminate. eauto.
    - destruct (isDeniedField o (f_name f0)); [eapply Next; eauto|]. destruct (negb (right_seq H t f0)); [discriminate|].
      destruct (vget (f_index f0) v) as [[y|]|]; [|eapply Next; eauto | discriminate]. destruct (type_by_index H t (f_index f0)) as [ft0|]; [|discriminate].
      destruct (f_omitNil f0 && vnil y); [eapply Next; eauto|]. destruct (f_omitEmpty f0 && vempty y); [eapply Next; eauto|].
      cbn zeta in Hr. destruct (rec ft0 ca _ y) as [b [e|]| |]; try discriminate. eapply Next; eauto.
  Qed.

  (** ... and an error comes from a field that is shown. *)
  Lemma vfields_err t ca v fs : forall first out0 out e, vfields H o rec t ca v fs first out0 = VRet out (Some e) ->
    exists f ft x b, In f fs /\ shown H o t v f ft x /\ rec ft ca (quoted H f ft) x = VRet b (Some e).
  Proof.
    induction fs as [|f fs IH]; intros first out0 out e Hr; cbn [vfields] in Hr; [destruct first; discriminate|].
    assert (Next : forall first out0, vfields H o rec t ca v fs first out0 = VRet out (Some e) ->
      exists f0 ft x b, In f0 (f :: fs) /\ shown H o t v f0 ft x /\ rec ft ca (quoted H f0 ft) x = VRet b (Some e)).
    { intros fi o0 Hx. destruct (IH _ _ _ _ Hx) as (f' & ft & x & b & A & B & C). exists f', ft, x, b. split; [right; exact A | auto]. }
    destruct (isDeniedField o (f_name f)) eqn:Ed; [eapply Next; eauto|]. destruct (negb (right_seq H t f)); [discriminate|].
    destruct (vget (f_index f) v) as [[x|]|] eqn:Ev; [|eapply Next; eauto | discriminate]. destruct (type_by_index H t (f_index f)) as [ft|] eqn:Et; [|discriminate].
    destruct (f_omitNil f && vnil x) eqn:En; [eapply Next; eauto|]. destruct (f_omitEmpty f && vempty x) eqn:Ee; [eapply Next; eauto|].
    cbn zeta in Hr. fold (quoted H f ft) in Hr. destruct (rec ft ca (quoted H f ft) x) as [b [e'|]| |] eqn:Er; try discriminate; [|eapply Next; eauto].
    injection Hr as _ <-. exists f, ft, x, b. split; [left; reflexivity|]. split; [|exact Er].
    split; [rewrite <- isDeniedField_spec; congruence|]. split; [split; assumption|]. rewrite <- dropped_spec, En, Ee. discriminate.
  Qed.
  End Rec.

  Hypothesis OK : host_ok H vcall.

  (** ** A value with an encoding has only parts with an encoding *)
  Variable m : mem.
  Lemma child_gives x y : held H m x -> child H o x y -> gives_bytes x -> gives_bytes y.
  Proof.
    intros Hh Hc. destruct x as [[[t ca] q] v]. destruct Hh as [Ht _]. intros (n & out & Hn). destruct n as [|n]; [discriminate|]. cbn [venc] in Hn.
    inversion Hc as [t' ca' q' e v' P U | t' ca' q' td v' P U | t' ca' q' e vs v' P U B I | t' ca' q' an e vs v' P U B I
      | t' ca' q' kt et es k v' P U K I S N | t' ca' q' kt et es k v' P U K I | t' ca' q' fs0 k fs vs f ft x P U S I W
      | ca' q' es kt k v' I S K | ca' q' es k vt v' I]; subst; cbn [gives_bytes];
    try (destruct P as [P1 P2]; rewrite P1, P2 in Hn; unfold vkind in Hn; rewrite U in Hn).
    - eauto.
    - apply vany_ret in Hn. eauto.
    - rewrite B in Hn. apply velems_ret in Hn. destruct Hn as (bs & Hf & _). destruct (forall2_in _ _ _ Hf _ I) as (b & Hb). eauto.
    - rewrite B in Hn. apply velems_ret in Hn. destruct Hn as (bs & Hf & _). destruct (forall2_in _ _ _ Hf _ I) as (b & Hb). eauto.
    - rewrite K in Hn. cbn [negb] in Hn. destruct es as [|e0 es0]; [destruct I|]. set (es := e0 :: es0) in *.
      destruct (ventries_gives _ _ Hn) as [kvs Hf].
      destruct (gives_in _ _ Hf (vkey H o (venc H vcall o n) kt k) (venc H vcall o n et false false v')) as (kb & vb & Hk & _).
      { apply in_map_iff. exists (k, v'). auto. }
      unfold vkey in Hk. rewrite S, N in Hk. apply vquote_if_ret in Hk. destruct Hk as [b Hb]. eauto.
    - rewrite K in Hn. cbn [negb] in Hn. destruct es as [|e0 es0]; [destruct I|]. set (es := e0 :: es0) in *.
      destruct (ventries_gives _ _ Hn) as [kvs Hf].
      destruct (gives_in _ _ Hf (vkey H o (venc H vcall o n) kt k) (venc H vcall o n et false false v')) as (kb & vb & _ & Hk).
      { apply in_map_iff. exists (k, v'). auto. }
      eauto.
    - unfold vstruct in Hn. destruct (fields_of H t) eqn:Ef.
      + assert (fs = []) by (eapply no_fields; eauto). subst fs. destruct I.
      + destruct (structFields H n t) as [fs'|] eqn:Es; [|discriminate].
        assert (fs' = fs). { assert (A := structFields_mono H n (Nat.max n k) t fs' Es ltac:(lia)). assert (B := structFields_mono H k (Nat.max n k) t fs S ltac:(lia)). congruence. }
        subst fs'. destruct (vfields_shown _ _ _ _ _ _ _ _ Hn f ft x I W) as [b Hb]. eauto.
    - cbn [native vnative] in Hn. destruct (ventries_gives _ _ Hn) as [kvs Hf].
      destruct (gives_in _ _ Hf (vsync_key H o (venc H vcall o n) n (VIface kt k)) (vsync_val H (venc H vcall o n) n v')) as (kb & vb & Hk & _).
      { apply in_map_iff. exists (VIface kt k, v'). auto. }
      cbn [vsync_key] in Hk. rewrite S in Hk. cbn [negb andb] in Hk. destruct (negb (isInteger E kt) && negb (h_impl H kt MText)) eqn:Ek; [discriminate|].
      apply vquote_if_ret in Hk. destruct Hk as [b Hb]. apply vany_ret in Hb. eauto.
    - cbn [native vnative] in Hn. destruct (ventries_gives _ _ Hn) as [kvs Hf].
      destruct (gives_in _ _ Hf (vsync_key H o (venc H vcall o n) n k) (vsync_val H (venc H vcall o n) n (VIface vt v'))) as (kb & vb & _ & Hk).
      { apply in_map_iff. exists (k, VIface vt v'). auto. }
      cbn [vsync_val] in Hk. apply vany_ret in Hk. eauto.
  Qed.

  Theorem part_gives x y : held H m x -> part H o x y -> gives_bytes x -> gives_bytes y.
  Proof.
    intros Hh Hp. induction Hp as [|x y z Hc _ IH]; intros Hx; [exact Hx|]. apply IH; [eapply child_held; eauto | eapply child_gives; eauto].
  Qed.

  Lemma appendFloat_not_finite sh f b : not_finite f -> appendFloat sh [] f b = Ret [] (Some (EUnsupportedValue (special_text f))).
  Proof. intros [->|[neg ->]]; reflexivity. Qed.
  Lemma appendFloat_err sh f b out e : lift (appendFloat sh [] f b) = VRet out (Some e) -> not_finite f /\ e = EUnsupportedValue (special_text f).
  Proof. unfold appendFloat. destruct f; cbn [lift]; try discriminate; intros [= <- <-]; split; auto; [left | right; eexists]; reflexivity. Qed.

  Lemma receiver_det t hp v td w td' w' : receiver H t hp v td w -> receiver H t hp v td' w' -> td = td' /\ w = w'.
  Proof.
    intros R1 R2. inversion R1 as [t1 v1|t1 ms td1 w1 U1|t1 v1 I1 N1]; subst; inversion R2 as [t2 v2|t2 ms2 td2 w2 U2|t2 v2 I2 N2]; subst; auto;
    unfold is_iface in *; try (rewrite U1 in *; discriminate); rewrite U2 in *; discriminate.
  Qed.

  (** The call made for a method. *)
  Lemma vmarshaler_receiver n k t hp v out err : vmarshaler H vcall o n k t hp v = VRet out err ->
    (v = VNil /\ hp = false /\ (is_ptr H t = true \/ is_iface H t = true) /\ out = l_null /\ err = None) \/
    exists td w, receiver H t hp v td w /\ vmethod vcall o k (if hp then TPtr t else t) td w = VRet out err.
  Proof.
    unfold vmarshaler. destruct hp; [intros Hr; right; exists (TPtr t), (VPtr v); split; [constructor | exact Hr]|].
    destruct (under E t) eqn:Eu;
    try (destruct (is_direct H n t) as [[|]|]; [discriminate | | discriminate]; intros Hr; right; exists t, v; split; [constructor; [unfold is_iface; rewrite Eu; reflexivity | unfold is_ptr; rewrite Eu; discriminate] | exact Hr]).
    - destruct v; try discriminate; intros Hr.
      + injection Hr as <- <-. left. repeat split; auto. right. unfold is_iface. rewrite Eu. reflexivity.
      + right. eexists _, _. split; [eapply rc_dyn; eauto | exact Hr].
    - destruct v; try discriminate; intros Hr.
      + injection Hr as <- <-. left. repeat split; auto. left. unfold is_ptr. rewrite Eu. reflexivity.
      + right. eexists _, _. split; [eapply rc_val; [unfold is_iface; rewrite Eu; reflexivity | discriminate] | exact Hr].
  Qed.

  Lemma nil_no_receiver t td w : (is_ptr H t = true \/ is_iface H t = true) -> ~ receiver H t false VNil td w.
  Proof.
    intros Hc R. inversion R as [t1 v1|t1 ms td1 w1 U1|t1 v1 I1 N1]; subst. destruct Hc as [Hc|Hc]; [exact (N1 Hc eq_refl) | congruence].
  Qed.

  (** A part that raises an error has no encoding. *)
  Theorem raises_none x e : raises x e -> ~ gives_bytes x.
  Proof.
    intros Hx. destruct Hx; cbn [gives_bytes]; intros (n & out & Hn); (destruct n as [|n]; [discriminate|]); cbn [venc] in Hn.
    - cbn [native vnative] in Hn. unfold encode_time in Hn. assert (Y := time_year_correct g).
      assert (time_year g = y) by (eapply is_year_unique; eauto). replace ((time_year g <? 0) || (10000 <=? time_year g)) with true in Hn by lia. discriminate.
    - destruct H0 as [P1 P2]. rewrite P1, P2 in Hn. unfold vkind in Hn. rewrite H1 in Hn. rewrite appendFloat_not_finite in Hn by assumption. destruct q; discriminate.
    - cbn [native vnative] in Hn. unfold encode_duration in Hn. rewrite H0 in Hn. destruct mins; [rewrite Z.eqb_refl in Hn | change (DurationSeconds =? DurationMinutes) with false in Hn; rewrite Z.eqb_refl in Hn]; cbn iota in Hn; rewrite appendFloat_not_finite in Hn by assumption; discriminate.
    - cbn [native vnative] in Hn. unfold encode_number in Hn. destruct s as [|c s]; [congruence|]. rewrite H0 in Hn.
      destruct (is_valid_number (c :: s)) eqn:Ev; [apply is_valid_number_correct in Ev; tauto | discriminate].
    - destruct H0 as [P1 P2]. rewrite P1, P2 in Hn. unfold vkind, opaque in *. destruct (under E t); discriminate.
    - destruct H0 as [P1 P2]. rewrite P1, P2 in Hn. unfold vkind in Hn. rewrite H1, H2 in Hn. discriminate.
    - rewrite H0, H1 in Hn. apply vmarshaler_receiver in Hn. destruct Hn as [(-> & -> & Hc & _)|(td' & w' & Hr & Hm)]; [eapply nil_no_receiver; eauto|].
      destruct (receiver_det _ _ _ _ _ _ _ H2 Hr) as [<- <-]. destruct k; cbn [vmethod ctx_of] in *; rewrite H3 in Hm; discriminate.
    - rewrite H0, H1 in Hn. apply vmarshaler_receiver in Hn. destruct Hn as [(-> & -> & Hc & _)|(td' & w' & Hr & Hm)]; [eapply nil_no_receiver; eauto|].
      destruct (receiver_det _ _ _ _ _ _ _ H2 Hr) as [<- <-]. cbn [vmethod] in Hm. rewrite H3 in Hm. cbn [encode_json_result] in Hm. rewrite H4 in Hm.
      destruct (json_valid b) eqn:Ev; [|discriminate]. apply json_valid_correct in Ev; [|eapply ok_bytes; eauto]. destruct Ev as [j Hj]. eapply H5; eauto.
    - cbn [native vnative] in Hn. destruct (ventries_gives _ _ Hn) as [kvs Hf].
      destruct (gives_in _ _ Hf (vsync_key H o (venc H vcall o n) n VNil) (vsync_val H (venc H vcall o n) n v)) as (kb & vb & Hk & _); [apply in_map_iff; exists (VNil, v); auto | discriminate].
    - cbn [native vnative] in Hn. destruct (ventries_gives _ _ Hn) as [kvs Hf].
      destruct (gives_in _ _ Hf (vsync_key H o (venc H vcall o n) n (VIface kt k)) (vsync_val H (venc H vcall o n) n v)) as (kb & vb & Hk & _); [apply in_map_iff; exists (VIface kt k, v); auto|].
      cbn [vsync_key] in Hk. rewrite H1, H2, H3 in Hk. discriminate.
  Qed.

  (** ** An error is raised by a part *)
  Lemma method_raises t ca q hp v k td w out e : native t = false -> method_of H t ca = Some (k, hp) -> receiver H t hp v td w ->
    vmethod vcall o k (if hp then TPtr t else t) td w = VRet out (Some e) -> raises (t, ca, q, v) e.
  Proof.
    intros Hn Hm Hr Hv. assert (Use : forall c, vcall k td w (ctx_of o k) = inr c -> e = EMarshaler (if hp then TPtr t else t) k (IUser c) -> raises (t, ca, q, v) e).
    { intros c Hc ->. eapply ra_method; eauto. }
    destruct k; cbn [vmethod ctx_of] in *.
    - destruct (vcall MCtx td w (o_ctx o)); [discriminate|]. injection Hv as _ <-. eauto.
    - destruct (vcall MApp td w None); [discriminate|]. injection Hv as _ <-. eauto.
    - destruct (vcall MJson td w None) as [b|c] eqn:Ec; cbn [encode_json_result] in Hv; [|injection Hv as _ <-; eauto].
      destruct (opt noCompact) eqn:En; [discriminate|]. destruct (json_valid b) eqn:Ev; [discriminate|]. injection Hv as _ <-.
      eapply ra_json; eauto. intros j Hj. assert (X : json_valid b = true) by (apply json_valid_correct; [eapply ok_bytes; eauto | eauto]). congruence.
    - destruct (vcall MText td w None); cbn [encode_text_result] in Hv; [discriminate|]. injection Hv as _ <-. eauto.
  Qed.

  Lemma part_one x y e : child H o x y -> (exists z, part H o y z /\ raises z e) -> exists z, part H o x z /\ raises z e.
  Proof. intros Hc (z & Hp & Hz). exists z. split; [eapply part_step; eauto | exact Hz]. Qed.

  Theorem error_raised n : forall t ca q v out e, venc H vcall o n t ca q v = VRet out (Some e) -> exists y, part H o (t, ca, q, v) y /\ raises y e.
  Proof.
    induction n as [|n IH]; intros t ca q v out e Hr; [discriminate|]. cbn [venc] in Hr.
    assert (Here : raises (t, ca, q, v) e -> exists y, part H o (t, ca, q, v) y /\ raises y e) by (intros X; exists (t, ca, q, v); split; [constructor | exact X]).
    destruct (native t) eqn:En.
    - destruct t; try discriminate En; cbn [vnative] in Hr; destruct v; try discriminate Hr.
      + unfold encode_time in Hr. destruct ((time_year t <? 0) || (10000 <=? time_year t)) eqn:Ey.
        * injection Hr as _ <-. apply Here. eapply ra_year; [apply time_year_correct | lia].
        * destruct (opt unixTime); [discriminate|]. destruct (bytes_eqb _ _); [destruct (appendRFC3339Time t [] false); discriminate|].
          destruct (bytes_eqb _ _); [destruct (appendRFC3339Time t [] true); discriminate | discriminate].
      + unfold encode_duration in Hr. destruct (o_durationFmt o =? DurationMinutes) eqn:E1.
        { apply appendFloat_err in Hr. destruct Hr as [Hf ->]. apply Here. apply (ra_dur ca q n0 true); [lia | exact Hf]. }
        destruct (o_durationFmt o =? DurationSeconds) eqn:E2.
        { apply appendFloat_err in Hr. destruct Hr as [Hf ->]. apply Here. apply (ra_dur ca q n0 false); [lia | exact Hf]. }
        repeat match type of Hr with context [if ?b then _ else _] => destruct b; [try discriminate Hr | try discriminate Hr] end.
        destruct (append_duration _ _); discriminate.
      + unfold encode_number in Hr. match type of Hr with context [if ?b then _ else _] => destruct b eqn:Ev; [|discriminate] end.
        injection Hr as _ <-. apply andb_prop in Ev. destruct Ev as [E1 E2]. destruct s as [|c s]; [vm_compute in E2; discriminate E2|]. apply Here. constructor; [destruct (opt noNumberValidation); [discriminate | reflexivity] | discriminate |].
        intros J. apply is_valid_number_correct in J. rewrite J in E2. discriminate.
      + destruct (vbytes vs); [|discriminate]. cbn [encode_raw_message] in Hr. destruct (opt noCompact); discriminate.
      + apply ventries_err in Hr. destruct Hr as (k' & v' & b & Hi & Hb). apply in_map_iff in Hi. destruct Hi as ([k v] & [= <- <-] & Hi). cbn [fst snd] in Hb.
        destruct Hb as [Hb|Hb].
        * destruct k; cbn [vsync_key] in Hb; try discriminate; [injection Hb as _ <-; apply Here; econstructor; eauto|].
          destruct (isString E t) eqn:Es, (isInteger E t) eqn:Ei, (h_impl H t MText) eqn:Ex; cbn [negb andb] in Hb; try (destruct k; discriminate);
          [| | | injection Hb as _ <-; apply Here; eapply ra_keytype; eauto];
          apply vquote_if_ret in Hb; destruct Hb as [b' Hb]; apply vany_ret in Hb;
          (eapply part_one; [eapply ch_skey; eauto; rewrite Ei, Ex; reflexivity | eapply IH; eauto]).
        * destruct v; cbn [vsync_val] in Hb; try discriminate. apply vany_ret in Hb. eapply part_one; [eapply ch_sval; eauto | eapply IH; eauto].
    - destruct (method_of H t ca) as [[k hp]|] eqn:Em.
      { apply vmarshaler_receiver in Hr. destruct Hr as [(_ & _ & _ & _ & X)|(td & w & Hrc & Hm)]; [discriminate|]. apply Here. eapply method_raises; eauto. }
      assert (P : plain H t ca) by (split; assumption). unfold vkind in Hr.
      assert (Op : opaque H t = true -> e = EUnsupportedType t -> exists y, part H o (t, ca, q, v) y /\ raises y e).
      { intros X ->. apply Here. apply ra_kind; assumption. }
      destruct (under E t) as [ |ik|fb| | | | | |ms|el|el|an el|kt et|fs|nn| | | | | ] eqn:Eu; try discriminate Hr;
        try (injection Hr as _ <-; apply Op; [unfold opaque; rewrite Eu|]; reflexivity).
      + destruct v; try discriminate. destruct q; discriminate.
      + destruct v; try discriminate. destruct q; discriminate.
      + destruct v; try discriminate. apply vquote_if_ret in Hr. destruct Hr as [b Hr]. apply appendFloat_err in Hr. destruct Hr as [Hf ->]. apply Here. eapply ra_float; eauto.
      + destruct v; discriminate.
      + destruct v; try (destruct ms; discriminate). destruct ms; [discriminate|]. apply vany_ret in Hr. eapply part_one; [eapply ch_iface; eauto | eapply IH; eauto].
      + destruct v; try discriminate. eapply part_one; [eapply ch_ptr; eauto | eapply IH; eauto].
      + destruct v; try discriminate; [destruct (byte_elem H el); discriminate|]. destruct (byte_elem H el) eqn:Eb; [destruct (vbytes vs); discriminate|].
        apply velems_err in Hr. destruct Hr as (x & b & Hi & Hx). eapply part_one; [eapply ch_slice; eauto | eapply IH; eauto].
      + destruct v; try discriminate. destruct (byte_elem H el && opt byteArrayAsString) eqn:Eb; [destruct (vbytes vs); discriminate|].
        apply velems_err in Hr. destruct Hr as (x & b & Hi & Hx). eapply part_one; [eapply ch_array; eauto | eapply IH; eauto].
      + destruct (key_ok H kt) eqn:Ek; cbn [negb] in Hr; [|injection Hr as _ <-; apply Here; eapply ra_key; eauto].
        destruct v; try discriminate. destruct es as [|e0 es0]; [discriminate|]. set (es := e0 :: es0) in *.
        apply ventries_err in Hr. destruct Hr as (k' & v' & b & Hi & Hb). apply in_map_iff in Hi. destruct Hi as ([k v] & [= <- <-] & Hi). cbn [fst snd] in Hb.
        destruct Hb as [Hb|Hb].
        * unfold vkey in Hb. destruct (isString E kt) eqn:Es; [destruct k; discriminate|]. destruct (h_impl H kt MText && is_ptr H kt && vnil k) eqn:Ex; [discriminate|].
          apply vquote_if_ret in Hb. destruct Hb as [b' Hb]. eapply part_one; [eapply ch_key; eauto | eapply IH; eauto].
        * eapply part_one; [eapply ch_elem; eauto | eapply IH; eauto].
      + destruct v; try discriminate. unfold vstruct in Hr. destruct (fields_of H t); [discriminate|]. destruct (structFields H n t) as [sf|] eqn:Es; [|discriminate].
        apply vfields_err in Hr. destruct Hr as (f & ft & x & b & Hi & Hs & Hb). eapply part_one; [eapply ch_field; eauto | eapply IH; eauto].
  Qed.
End Parts.
