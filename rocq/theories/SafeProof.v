(** Encoding a value all of whose parts can be read safely does not misread
    memory and does not panic. *)
From Coq Require Import Permutation.
From Verif Require Import Base Utf8 NumberModel IntModel JsonSpec OptionsModel EscapeModel EscapeProof JsonParse CompactModel IntProof BufModel DurationModel DurationProof CalendarSpec
  TypesModel TypesFacts TagsModel TagsProof TimeModel TimeProof FloatModel LeafModel LeafProof MemModel FieldsSpec FieldsModel FieldsProof FieldsThm Base64Model InstrModel ExecModel ValueModel
  ExecMono ExecProof VencFacts DocSpec EntriesFacts PartFacts TimeTotal.

Section Safe.
  Variable H : host.
  Variable vcall : mkind -> typ -> val -> option Z -> bytes + Z.
  Hypothesis OK : host_ok H vcall.
  Variable o : encOpts.
  Variable m : mem.
  Notation E := (h_env H).
  Notation opt := (has (o_flags o)).
  Notation tok := (typ_ok (h_letter H) (h_udigit H)).
  Notation rp := (repr H m).

  Definition all_readable (x : node) : Prop := forall y, part H o x y -> readable_node H o y.

  Lemma readable_here x : all_readable x -> readable_node H o x.
  Proof. intros Hx. apply Hx, part_refl. Qed.
  Lemma readable_child x y : all_readable x -> child H o x y -> all_readable y.
  Proof. intros Hx Hc z Hz. apply Hx. eapply part_step; eauto. Qed.

  Lemma readable_plain t ca q v : native t = false -> readable_node H o (t, ca, q, v) ->
    match method_of H t ca with
    | Some (_, true) => True
    | Some (_, false) => match under E t with TPtr _ | TIface _ => True | _ => ~ direct H t end
    | None =>
      match under E t, v with
      | TIface (Some _), VIface _ _ => False
      | TIface None, VIface td _ => dyn_ok H td
      | TMap kt _, VMap _ => key_readable H o kt false
      | TStruct _, VStruct _ =>
        forall n fs f p sq w i, structFields H n t = Some fs -> In f fs -> ~ denied o (f_name f) -> f_index f = p ++ [i] ->
            epath E (h_off H) (h_letter H) (h_udigit H) t p sq w -> unshared E (h_off H) (h_letter H) (h_udigit H) t p
      | _, _ => True
      end
    end.
  Proof. intros Hn. destruct t; try discriminate Hn; exact (fun x => x). Qed.

  Lemma under_literal t : is_named (under E t) = false.
  Proof. destruct t; try reflexivity. apply (wf_names _ (ok_wf _ _ OK)). Qed.

  (** ** isInlined *)
  Lemma isInlined_spec n : forall t b, isInlined H n t = Some b -> (b = true <-> inlined H t).
  Proof.
    induction n as [|n IH]; intros t b Hd; [discriminate|]. cbn [isInlined] in Hd.
    assert (No : forall x, Some false = Some x -> (forall e, under E t <> TPtr e) -> (forall k e, under E t <> TMap k e) ->
              (forall d u, under E t <> TStruct [(d, u)]) -> (x = true <-> inlined H t)).
    { intros x [= <-] N1 N2 N6. split; [discriminate|]. intros Hx. destruct Hx; exfalso.
      - eapply N1; eauto. - eapply N2; eauto. - eapply N6; eauto. }
    destruct (under E t) as [ |ik|fb| | | | | |ms|e|e|an e|kt et|fs|nn| | | | | ] eqn:Eu; try (apply No; auto; discriminate).
    - injection Hd as <-. split; [intros _; eapply in_ptr; eauto | reflexivity].
    - injection Hd as <-. split; [intros _; eapply in_map; eauto | reflexivity].
    - destruct fs as [|[d u] [|f2 fs]]; try (apply No; auto; discriminate). rewrite (IH _ _ Hd). split; intros Hx.
      + eapply in_struct; eauto.
      + inversion Hx as [? e U|? k e U|? d' u' U Hin]; subst; rewrite Eu in U; [discriminate | discriminate | injection U as <- <-; assumption].
  Qed.

  Lemma inlined_direct t : inlined H t -> direct H t.
  Proof. induction 1; [eapply d_ptr | eapply d_map | eapply d_struct]; eauto. Qed.

  Lemma dyn_ok_test n t d i : dyn_ok H t -> is_direct H n t = Some d -> isInlined H n t = Some i -> (Bool.eqb d i || opaque H t) = true.
  Proof.
    intros Hk Hd Hi. apply is_direct_spec in Hd. apply isInlined_spec in Hi. destruct Hk as [->|Hk]; [apply orb_true_r|].
    assert (Id := inlined_direct t). destruct d, i; auto; exfalso.
    - assert (X : inlined H t) by (apply Hk, Hd; reflexivity). apply Hi in X. discriminate.
    - assert (X : direct H t) by (apply Id, Hi; reflexivity). apply Hd in X. discriminate.
  Qed.

  (** ** Fields *)
  Notation epath' := (epath E (h_off H) (h_letter H) (h_udigit H)).

  Lemma embeds_values t i b u l v fs : embeds E (h_letter H) (h_udigit H) t i b u -> rp l t v -> struct_of E t fs -> exists vs, v = VStruct vs.
  Proof.
    intros He Hr Hs. destruct (repr_structural _ _ _ _ _ _ Hr Hs) as [(vs & -> & _)|[(g & ->)|(es & ->)]]; eauto; exfalso.
    - destruct (inv_time _ _ _ _ _ Hr) as [-> _]. destruct He as (fs' & d' & uf & n' & opts & Hfs' & Hj & _ & Ha & _). unfold struct_of in Hfs'. cbn [under] in Hfs'.
      injection Hfs' as <-. destruct i as [|[|[|[|i]]]]; try discriminate Hj; injection Hj as <- <-; discriminate Ha.
    - destruct (inv_sync _ _ _ _ _ Hr) as [-> _]. destruct He as (fs' & d' & uf & n' & opts & Hfs' & Hj & _ & Ha & _). unfold struct_of in Hfs'. cbn [under] in Hfs'.
      injection Hfs' as <-. destruct i as [|[|[|[|[|i]]]]]; try discriminate Hj; injection Hj as <- <-; discriminate Ha.
  Qed.

  Lemma here_values w i u name tg opts l v fs : candidate_here E (h_letter H) (h_udigit H) w i u name tg opts -> rp l w v -> struct_of E w fs -> exists vs, v = VStruct vs.
  Proof.
    intros He Hr Hs. destruct (repr_structural _ _ _ _ _ _ Hr Hs) as [(vs & -> & _)|[(g & ->)|(es & ->)]]; eauto; exfalso.
    - destruct (inv_time _ _ _ _ _ Hr) as [-> _]. destruct He as (fs' & d' & n' & Hfs' & Hj & ([Ha|[Ha _]] & _) & _); unfold struct_of in Hfs'; cbn [under] in Hfs';
      injection Hfs' as <-; destruct i as [|[|[|[|i]]]]; try discriminate Hj; injection Hj as <- <-; discriminate Ha.
    - destruct (inv_sync _ _ _ _ _ Hr) as [-> _]. destruct He as (fs' & d' & n' & Hfs' & Hj & ([Ha|[Ha _]] & _) & _); unfold struct_of in Hfs'; cbn [under] in Hfs';
      injection Hfs' as <-; destruct i as [|[|[|[|[|i]]]]]; try discriminate Hj; injection Hj as <- <-; discriminate Ha.
  Qed.

  Lemma vget_some p : forall t sq w l v i u name tg opts, epath' t p sq w -> rp l t v -> candidate_here E (h_letter H) (h_udigit H) w i u name tg opts ->
    vget (p ++ [i]) v <> None.
  Proof.
    induction p as [|j p IH]; intros t sq w l v i u name tg opts Hp Hr Hc.
    - inversion Hp; subst; [|destruct p; discriminate]. assert (Hc' := Hc). destruct Hc' as (fs & d & n & Hfs & Hi & _).
      destruct (here_values _ _ _ _ _ _ _ _ _ Hc Hr Hfs) as (vs & ->).
      destruct (repr_structural _ _ _ _ _ _ Hr Hfs) as [(vs' & [= <-] & L & _)|[(? & X)|(? & X)]]; try discriminate X.
      cbn [app vget]. destruct (nth_error vs i) eqn:Ex; [discriminate|]. apply nth_error_None in Ex.
      assert (i < length fs)%nat by (apply nth_error_Some; congruence). lia.
    - destruct (epath_cons H _ _ _ _ _ Hp) as (isptr & fs & u' & sq' & He & Hfs & -> & Hp').
      destruct (embeds_values _ _ _ _ _ _ _ He Hr Hfs) as (vs & ->).
      destruct (repr_structural _ _ _ _ _ _ Hr Hfs) as [(vs' & [= <-] & L & R)|[(? & X)|(? & X)]]; try discriminate X.
      destruct He as (fs' & d' & uf & n' & opts' & Hfs' & Hj & _ & _ & _ & _ & Hde & Hst & Hptr).
      unfold struct_of in Hfs, Hfs'. rewrite Hfs in Hfs'. injection Hfs' as <-.
      assert (Hne : exists k q, p ++ [i] = k :: q) by (destruct p; cbn; eauto). destruct Hne as (k & q & Hq).
      cbn [app vget]. destruct (nth_error vs j) as [x|] eqn:Ex.
      2:{ apply nth_error_None in Ex. assert (j < length fs)%nat by (apply nth_error_Some; congruence). lia. }
      assert (Rx := R _ _ _ _ Hj Ex). rewrite Hq. cbn beta iota. rewrite <- Hq.
      destruct Hde as [-> | [Hnp ->]].
      * destruct x as [| | | | |x| | | | | | | |]; try discriminate; try (exfalso; inversion Rx as [? ? ? U|? ? ? ? U|? ? ? ? U|? ? ? U|? ? U|? ? ? ? ? U|? ? ? ? ? ? U|? ? ? ? ? U|? ? ? ? ? U|? ? ? ? ? ? ? U|? ? ? ? U|?|?|? ? U]; subst; cbn in U; discriminate U).
        destruct (inv_ptr _ _ _ _ _ Rx) as (e0 & a & U & _ & _ & Rx'). cbn [under] in U. injection U as <-. eapply IH; eauto.
      * assert (G := IH _ _ _ _ _ _ _ _ _ _ Hp' Rx Hc). destruct Hst as [fs2 Hs2].
        destruct (repr_structural _ _ _ _ _ _ Rx Hs2) as [(vs2 & -> & _) | [(g & ->) | (es & ->)]]; exact G.
  Qed.

  Lemma field_value_or_nil k t fs f v l : tok t -> structFields H k t = Some fs -> In f fs -> rp l t v ->
    vget (f_index f) v = Some None \/ exists ft x, field_value H t v f ft x.
  Proof.
    intros Ht Hs Hf Hr. destruct (field_cases H vcall OK m k t fs f v l Ht Hs Hf Hr) as [X|[X|X]]; auto. exfalso.
    destruct (structFields_data H (ok_wf _ _ OK) t Ht k fs f Hs Hf) as (p & sq & w & i & u & opts & A1 & A2 & A3 & _). rewrite A1 in X.
    eapply vget_some; eauto.
  Qed.

  (** ** Results *)
  Lemma vthen_safe pre r k : r <> VOut -> (forall b, k b <> VOut) -> vthen pre r k <> VOut.
  Proof. intros Hr Hk. unfold vthen. destruct r as [b [e|]| |]; try congruence; try discriminate. Qed.

  Lemma vquote_if_safe q r : r <> VOut -> vquote_if q r <> VOut.
  Proof. intros Hr. destruct q; [|exact Hr]. unfold vquote_if, vquote. destruct r as [b [e|]| |]; congruence. Qed.

  Lemma velems_safe rec e ca vs : (forall v, In v vs -> rec e ca false v <> VOut) -> forall first out, velems rec e ca vs first out <> VOut.
  Proof.
    induction vs as [|v vs IH]; intros Hv first out; cbn [velems]; [destruct first; discriminate|].
    apply vthen_safe; [apply Hv; left; reflexivity | intros b; apply IH; intros x Hx; apply Hv; right; exact Hx].
  Qed.

  (** Entries: no part fails, and keys are long enough when they are sorted. *)
  Lemma ventries_safe es :
    (forall k v, In (k, v) es -> k <> VOut /\ v <> VOut /\ (opt unsortedMap = false -> forall b, k = VRet b None -> (2 <= length b)%nat)) ->
    ventries H o es <> VOut.
  Proof.
    intros He. unfold ventries. apply vthen_safe; [|intros; discriminate]. destruct (opt unsortedMap).
    - generalize true as first, [123] as out. induction es as [|[k v] es IH]; intros first out; cbn [vunsorted]; [discriminate|].
      destruct (He k v (or_introl eq_refl)) as (Hk & Hv & _).
      apply vthen_safe; [exact Hk|]. intros b. apply vthen_safe; [exact Hv|]. intros b'. apply IH. intros k' v' Hi. apply He. right. exact Hi.
    - unfold vsorted. assert (G : forall kvs, vfill es kvs <> VFOut).
      { induction es as [|[k v] es IH]; intros kvs; cbn [vfill]; [discriminate|]. destruct (He k v (or_introl eq_refl)) as (Hk & Hv & Hl).
        assert (IH' := IH (fun k' v' Hi => He k' v' (or_intror Hi))).
        destruct k as [kb [ke|]| |]; try discriminate; try congruence. specialize (Hl eq_refl kb eq_refl). replace (length kb <? 2)%nat with false by lia.
        destruct v as [vb [ve|]| |]; try discriminate; try congruence. }
      specialize (G []). destruct (vfill es []); try discriminate. congruence.
  Qed.

  Lemma vmethod_safe k t td v : vmethod vcall o k t td v <> VOut.
  Proof.
    unfold vmethod, encode_json_result, encode_text_result. destruct k.
    - destruct (vcall MCtx td v (o_ctx o)); discriminate.
    - destruct (vcall MApp td v None); discriminate.
    - destruct (vcall MJson td v None) as [b|e]; [|discriminate]. destruct (opt noCompact); [discriminate|].
      destruct (negb (JsonParse.json_valid b)); discriminate.
    - destruct (vcall MText td v None); discriminate.
  Qed.

  Lemma vmethod_text_len t td v b : vmethod vcall o MText t td v = VRet b None -> (2 <= length b)%nat.
  Proof.
    cbn [vmethod]. destruct (vcall MText td v None) as [x|]; [|discriminate]. cbn [encode_text_result lift app]. intros [= <-].
    cbn [length]. rewrite app_length. cbn [length]. lia.
  Qed.

  Lemma appendFloat_safe sh dst f b : lift (appendFloat sh dst f b) <> VOut.
  Proof. unfold appendFloat. destruct f; discriminate. Qed.

  Lemma encode_string_len s : bytes_ok s -> (2 <= length (encode_string [] s o))%nat.
  Proof. intros Hb. rewrite encode_string_body by exact Hb. cbn [length]. rewrite app_length. cbn [length]. lia. Qed.

  Lemma encode_time_safe g : gtime_ok g -> lift (encode_time (h_fmt H) g [] o) <> VOut.
  Proof.
    intros Hg. unfold encode_time. destruct ((time_year g <? 0) || (10000 <=? time_year g)) eqn:Ey; [discriminate|].
    destruct (opt unixTime); [discriminate|].
    destruct (rfc3339_total g [] false Hg) as (s1 & E1 & _); [lia|]. destruct (rfc3339_total g [] true Hg) as (s2 & E2 & _); [lia|].
    rewrite E1, E2. destruct (bytes_eqb _ _); [discriminate|]. destruct (bytes_eqb _ _); discriminate.
  Qed.

  Lemma encode_time_len g b : gtime_ok g -> opt unixTime = false -> lift (encode_time (h_fmt H) g [] o) = VRet b None -> (2 <= length b)%nat.
  Proof.
    intros Hg Hu. unfold encode_time. destruct ((time_year g <? 0) || (10000 <=? time_year g)) eqn:Ey; [discriminate|]. rewrite Hu.
    destruct (rfc3339_total g [] false Hg) as (s1 & E1 & L1); [lia|]. destruct (rfc3339_total g [] true Hg) as (s2 & E2 & L2); [lia|].
    rewrite E1, E2. destruct (bytes_eqb _ _); [cbn; intros [= <-]; lia|]. destruct (bytes_eqb _ _); [cbn; intros [= <-]; lia|].
    cbn [lift app]. intros [= <-]. cbn [length]. rewrite app_length. cbn [length]. lia.
  Qed.

  (** The shape of a value is given by its type. *)
  Lemma shape l t v : rp l t v ->
    match under E t with
    | TBool => exists b, v = VBool b
    | TInt k => exists n, v = VInt n /\ int_range k n
    | TFloat _ => exists f, v = VFloat f
    | TString => exists s, v = VStr s /\ bytes_ok s
    | TIface _ => v = VNil \/ exists td w, v = VIface td w
    | TPtr _ => v = VNil \/ exists w, v = VPtr w
    | TSlice _ => v = VNil \/ exists vs, v = VSlice vs
    | TArray _ _ => exists vs, v = VArr vs
    | TMap _ _ => v = VNil \/ exists es, v = VMap es
    | TStruct _ => (exists vs, v = VStruct vs) \/ (t = TTime /\ exists g, v = VTime g /\ gtime_ok g) \/ (t = TSyncMap /\ exists es, v = VSync es)
    | _ => True
    end.
  Proof.
    intros Hr. inversion Hr as [? ? ? U|? ? ? ? U|? ? ? ? U|? ? ? U|? ? U U2|? ? ? ? ? U|? ? ? ? ? ? U|? ? ? ? ? U|? ? ? ? ? U|? ? ? ? ? ? ? U|? ? ? ? U|? ? ? U|? ? ? U|? ? U]; subst; clear Hr;
      try (rewrite U; eauto 6; fail).
    - unfold isNilable in U2. destruct (under E t); try discriminate; auto.
    - cbn [under]. right. left. eauto.
    - cbn [under]. right. right. eauto.
    - unfold opaque in U. destruct (under E t); try discriminate; exact I.
  Qed.

  Lemma held_bytes vs e : under E e = TInt KUint8 -> (forall v, In v vs -> exists l, rp l e v) -> vbytes vs <> None.
  Proof.
    intros He. induction vs as [|v vs IH]; intros Hv; cbn [vbytes]; [discriminate|].
    destruct (Hv v (or_introl eq_refl)) as [l Hl]. apply shape in Hl. rewrite He in Hl. destruct Hl as (n & -> & _).
    specialize (IH (fun x Hx => Hv x (or_intror Hx))). destruct (vbytes vs); [discriminate | congruence].
  Qed.

  Section Rec.
  Variable rec : typ -> bool -> bool -> val -> vres.
  Hypothesis IH : forall t ca q v, held H m (t, ca, q, v) -> all_readable (t, ca, q, v) -> rec t ca q v <> VOut.
  (** Keys: texts and times are at least two bytes long. *)
  Hypothesis IHlen : forall t ca v b, held H m (t, ca, false, v) ->
    ((t = TTime /\ opt unixTime = false) \/ (native t = false /\ exists hp, method_of H t ca = Some (MText, hp))) ->
    rec t ca false v = VRet b None -> (2 <= length b)%nat.

  Lemma vany_safe n t v : dyn_ok H t -> held H m (t, is_ptr H t, false, v) -> all_readable (t, is_ptr H t, false, v) -> vany H rec n t v <> VOut.
  Proof.
    intros Hd Hh Ha. unfold vany. destruct (is_direct H n t) as [d|] eqn:E1; [|discriminate]. destruct (isInlined H n t) as [i|] eqn:E2; [|discriminate].
    rewrite (dyn_ok_test n t d i Hd E1 E2). apply IH; assumption.
  Qed.

  Lemma fields_safe t ca q vs k all fs0 l : plain H t ca -> under E t = TStruct fs0 -> tok t -> structFields H k t = Some all ->
    rp l t (VStruct vs) -> all_readable (t, ca, q, VStruct vs) ->
    forall fs first out0, (forall f, In f fs -> In f all) -> vfields H o rec t ca (VStruct vs) fs first out0 <> VOut.
  Proof.
    intros Hp Hu Ht Hs Hr Ha. induction fs as [|f fs IHf]; intros first out0 Hin; cbn [vfields]; [destruct first; discriminate|].
    assert (IHf' : forall first out, vfields H o rec t ca (VStruct vs) fs first out <> VOut) by (intros; apply IHf; intros; apply Hin; right; assumption).
    assert (Hf := Hin f (or_introl eq_refl)).
    destruct (isDeniedField o (f_name f)) eqn:Ed; [apply IHf'|].
    assert (Nd : ~ denied o (f_name f)) by (rewrite <- isDeniedField_spec; congruence).
    assert (S0 := readable_plain _ _ _ _ (proj1 Hp) (readable_here _ Ha)). rewrite (proj2 Hp), Hu in S0.
    assert (Rs : right_seq H t f = true).
    { destruct (structFields_data H (ok_wf _ _ OK) t Ht k all f Hs Hf) as (p & sq & w & i & u & opts & A1 & A2 & _).
      eapply (structFields_offsets H (ok_wf _ _ OK) t Ht); eauto. }
    rewrite Rs. cbn [negb].
    destruct (field_value_or_nil k t all f _ l Ht Hs Hf Hr) as [Ev|(ft & x & Ev & Et)]; rewrite Ev; [apply IHf'|]. rewrite Et.
    destruct (f_omitNil f && vnil x) eqn:En; [apply IHf'|]. destruct (f_omitEmpty f && vempty x) eqn:Ee; [apply IHf'|].
    assert (Sn : shown H o t (VStruct vs) f ft x).
    { split; [exact Nd|]. split; [split; assumption|]. rewrite <- dropped_spec, En, Ee. discriminate. }
    fold (quoted H f ft). cbn zeta.
    assert (Hc : child H o (t, ca, q, VStruct vs) (ft, ca, quoted H f ft, x)) by (eapply ch_field; eauto).
    assert (Hh' := child_held H vcall OK o m (t, ca, q, VStruct vs) _ (conj Ht (ex_intro _ l Hr)) Hc). assert (Ha' := readable_child _ _ Ha Hc).
    assert (R := IH _ _ _ _ Hh' Ha'). destruct (rec ft ca (quoted H f ft) x) as [b [e|]| |]; [discriminate | apply IHf' | congruence | discriminate].
  Qed.

  Lemma kind_safe n t ca q v : plain H t ca -> held H m (t, ca, q, v) -> all_readable (t, ca, q, v) -> vkind H o rec n t ca q v <> VOut.
  Proof.
    intros Hp Hh Ha. assert (Hs := readable_plain _ _ _ _ (proj1 Hp) (readable_here _ Ha)). rewrite (proj2 Hp) in Hs.
    assert (Ch : forall y, child H o (t, ca, q, v) y -> held H m y /\ all_readable y).
    { intros y Hc. split; [eapply child_held; eauto | eapply readable_child; eauto]. }
    destruct Hh as (Ht & l & Hrp). assert (Sh := shape _ _ _ Hrp). assert (G := under_ok H (ok_wf _ _ OK) t Ht). unfold vkind.
    assert (Nm := under_literal t).
    destruct (under E t) as [ |ik|fb| | | | | |ms|e|e|an e|kt et|fs|nn| | | | | ] eqn:Eu; try discriminate; try discriminate Nm.
    - destruct Sh as (b & ->). apply vquote_if_safe. discriminate.
    - destruct Sh as (z & -> & _). apply vquote_if_safe. discriminate.
    - destruct Sh as (f & ->). apply vquote_if_safe, appendFloat_safe.
    - destruct Sh as (s & -> & _). destruct q; discriminate.
    - destruct Sh as [->|(td & w & ->)]; [discriminate|]. destruct ms; [destruct Hs|]. destruct (Ch _ (ch_iface H o t ca q td w Hp Eu)) as [C1 C2].
      apply vany_safe; assumption.
    - destruct Sh as [->|(w & ->)]; [discriminate|]. destruct (Ch _ (ch_ptr H o t ca q _ w Hp Eu)) as [C1 C2]. apply IH; assumption.
    - destruct Sh as [->|(vs & ->)]; [destruct (byte_elem H e); discriminate|]. destruct (byte_elem H e) eqn:Eb.
      + assert (X : vbytes vs <> None).
        { apply (held_bytes vs e); [apply byte_elem_under; exact Eb|]. destruct (inv_slice _ _ _ _ _ Hrp) as (e0 & a & Q1 & _ & _ & Q4). rewrite Eu in Q1. injection Q1 as <-.
          intros v Hv. destruct (In_nth_error _ _ Hv) as [j Hj]. eauto. }
        destruct (vbytes vs); [discriminate | congruence].
      + apply velems_safe. intros v Hv. destruct (Ch (e, true, false, v)) as [C1 C2]; [eapply ch_slice; eauto|]. apply IH; assumption.
    - destruct Sh as (vs & ->). destruct (byte_elem H e && opt byteArrayAsString) eqn:Eb.
      + apply andb_prop in Eb. destruct Eb as [Eb _]. assert (X : vbytes vs <> None).
        { apply (held_bytes vs e); [apply byte_elem_under; exact Eb|]. destruct (inv_arr _ _ _ _ _ Hrp) as (e0 & Q1 & Q4). rewrite Eu in Q1. injection Q1 as -> <-.
          intros v Hv. destruct (In_nth_error _ _ Hv) as [j Hj]. eauto. }
        destruct (vbytes vs); [discriminate | congruence].
      + apply velems_safe. intros v Hv. destruct (Ch (e, ca, false, v)) as [C1 C2]; [eapply ch_array; eauto|]. apply IH; assumption.
    - destruct (key_ok H kt) eqn:Ek; cbn [negb]; [|discriminate]. destruct Sh as [->|(es & ->)]; [discriminate|]. destruct es as [|e0 es0]; [discriminate|].
      set (es := e0 :: es0) in *. apply ventries_safe. intros k' v' Hi. apply in_map_iff in Hi. destruct Hi as ([k v] & [= <- <-] & Hi). cbn [fst snd].
      destruct (inv_map _ _ _ _ _ Hrp) as (k0 & e1 & a & addrs & Q1 & _ & _ & _ & Q5 & Q6). rewrite Eu in Q1. injection Q1 as <- <-.
      assert (Hk : held H m (kt, false, false, k)).
      { split; [apply G|]. destruct (In_nth_error _ _ Hi) as [i Hn]. destruct (nth_error addrs i) as [[ka va]|] eqn:Ea.
        2:{ apply nth_error_None in Ea. assert (i < length es)%nat by (apply nth_error_Some; congruence). lia. }
        exists (LMem ka). apply (Q6 _ _ _ _ _ Ea Hn). }
      destruct (Ch _ (ch_elem H o t ca q _ _ _ _ _ Hp Eu Ek Hi)) as [C1 C2]. split; [|split].
      + unfold vkey. destruct (isString E kt) eqn:Es.
        * destruct Hk as (_ & lk & Hk). apply shape in Hk. unfold isString in Es. destruct (under E kt); try discriminate Es. destruct Hk as (s & -> & _). discriminate.
        * destruct (h_impl H kt MText && is_ptr H kt && vnil k) eqn:En; [discriminate|]. apply vquote_if_safe.
          destruct (Ch _ (ch_key H o t ca q _ _ _ _ _ Hp Eu Ek Hi Es En)) as [C3 C4]. apply IH; assumption.
      + apply IH; assumption.
      + intros Hu b. unfold vkey. destruct (isString E kt) eqn:Es.
        * destruct Hk as (_ & lk & Hk). apply shape in Hk. unfold isString in Es. destruct (under E kt); try discriminate Es. destruct Hk as (s & -> & Hb).
          intros [= <-]. apply encode_string_len. exact Hb.
        * destruct (h_impl H kt MText && is_ptr H kt && vnil k) eqn:En; [intros [= <-]; cbn; lia|].
          destruct Hs as [Hs|[Hs|[Hs|Hs]]]; [congruence|congruence| |].
          -- rewrite Hs. cbn [negb vquote_if vquote]. destruct (rec kt false false k) as [x [err|]| |]; try discriminate. intros [= <-]. cbn [length]. rewrite app_length. cbn [length]. lia.
          -- destruct (h_impl H kt MText); cbn [negb vquote_if].
             ++ apply IHlen; auto.
             ++ destruct (rec kt false false k) as [x [err|]| |]; try discriminate. cbn [vquote app]. intros [= <-]. cbn [length]. rewrite app_length. cbn [length]. lia.
    - destruct Sh as [(vs & ->)|[(-> & _)|(-> & _)]]; [| destruct Hp as [Hp _]; discriminate Hp .. ].
      unfold vstruct. destruct (fields_of H t); [discriminate|]. destruct (structFields H n t) as [sf|] eqn:Es; [|discriminate].
      eapply fields_safe; eauto.
  Qed.

  Lemma native_safe n t ca q v : native t = true -> held H m (t, ca, q, v) -> all_readable (t, ca, q, v) -> vnative H o rec n t v <> VOut.
  Proof.
    intros Hn Hh Ha. assert (Hs := readable_here _ Ha).
    assert (Ch : forall y, child H o (t, ca, q, v) y -> held H m y /\ all_readable y).
    { intros y Hc. split; [eapply child_held; eauto | eapply readable_child; eauto]. }
    destruct Hh as (Ht & l & Hrp). assert (Sh := shape _ _ _ Hrp).
    destruct t; try discriminate Hn; cbn [under] in Sh; cbn [vnative].
    - destruct Sh as [(vs & ->)|[(_ & g & -> & Hg)|(X & _)]]; [|apply encode_time_safe; exact Hg | discriminate].
      destruct (inv_struct _ _ _ _ _ Hrp) as (? & _ & X & _). congruence.
    - destruct Sh as (d & -> & Hd). unfold encode_duration. repeat match goal with |- context [if ?b then _ else _] => destruct b; try discriminate end; try apply appendFloat_safe.
      destruct (append_duration_spec ([] ++ [34]) d Hd) as (s & -> & _). discriminate.
    - destruct Sh as (s & -> & _). unfold encode_number. destruct (_ && _); discriminate.
    - destruct Sh as [->|(vs & ->)]; [discriminate|].
      assert (X : vbytes vs <> None).
      { apply (held_bytes vs (TInt KUint8)); [reflexivity|]. destruct (inv_slice _ _ _ _ _ Hrp) as (e0 & a & Q1 & _ & _ & Q4). cbn [under] in Q1. injection Q1 as <-.
        intros v Hv. destruct (In_nth_error _ _ Hv) as [j Hj]. eauto. }
      destruct (vbytes vs); [|congruence]. cbn [encode_raw_message]. destruct (opt noCompact); discriminate.
    - destruct Sh as [(vs & ->)|[(X & _)|(_ & es & ->)]]; [|discriminate|].
      { destruct (inv_struct _ _ _ _ _ Hrp) as (? & _ & _ & X & _). congruence. }
      cbn [readable_node] in Hs. destruct (inv_sync _ _ _ _ _ Hrp) as (_ & efs & Q1 & Q2 & Q3).
      apply ventries_safe. intros k' v' Hi. apply in_map_iff in Hi. destruct Hi as ([k v] & [= <- <-] & Hi). cbn [fst snd].
      destruct (Hs k v Hi) as (S1 & S2 & S3). destruct (In_nth_error _ _ Hi) as [j Hj]. destruct (nth_error efs j) as [[ka va]|] eqn:Ej.
      2:{ apply nth_error_None in Ej. assert (j < length es)%nat by (apply nth_error_Some; congruence). lia. }
      destruct (Q3 _ _ _ _ _ Ej Hj) as [W1 W2].
      assert (Kcase : k = VNil \/ exists kt k', k = VIface kt k') by (inversion W1; subst; eauto).
      assert (Vcase : exists vt v', v = VIface vt v') by (inversion W2; subst; [congruence | eauto]). destruct Vcase as (vt & v' & ->). split; [|split].
      + destruct Kcase as [->|(kt & k' & ->)]; [discriminate|]. cbn [vsync_key].
        destruct (negb (isString E kt) && negb (isInteger E kt) && negb (h_impl H kt MText)) eqn:Ek; [discriminate|].
        assert (Hk : held H m (kt, is_ptr H kt, false, k')) by (eapply any_held; eauto).
        destruct (isString E kt) eqn:Es.
        * destruct Hk as (_ & lk & Hk). apply shape in Hk. unfold isString in Es. destruct (under E kt); try discriminate Es. destruct Hk as (s & -> & _). discriminate.
        * apply vquote_if_safe. destruct (Ch (kt, is_ptr H kt, false, k')) as [C1 C2].
          { eapply ch_skey; eauto. destruct (isInteger E kt), (h_impl H kt MText); auto. }
          apply vany_safe; auto. apply (S2 kt k' eq_refl).
      + cbn [vsync_val]. destruct (Ch _ (ch_sval H o ca q es k vt v' Hi)) as [C1 C2]. apply vany_safe; auto. apply (S3 vt v' eq_refl).
      + intros Hu b. destruct Kcase as [->|(kt & k' & ->)]; [discriminate|]. cbn [vsync_key].
        destruct (negb (isString E kt) && negb (isInteger E kt) && negb (h_impl H kt MText)) eqn:Ek; [discriminate|].
        assert (Hk : held H m (kt, is_ptr H kt, false, k')) by (eapply any_held; eauto).
        destruct (isString E kt) eqn:Es.
        * destruct Hk as (_ & lk & Hk). apply shape in Hk. unfold isString in Es. destruct (under E kt); try discriminate Es. destruct Hk as (s & -> & Hb).
          intros [= <-]. apply encode_string_len. exact Hb.
        * destruct (S2 kt k' eq_refl) as [_ Hkr].
          assert (Quo : vquote_if true (vany H rec n kt k') = VRet b None -> (2 <= length b)%nat).
          { cbn [vquote_if]. destruct (vany H rec n kt k') as [x [err|]| |]; try discriminate. cbn [vquote app]. intros [= <-]. cbn [length]. rewrite app_length. cbn [length]. lia. }
          destruct Hkr as [Hkr|[Hkr|[Hkr|Hkr]]]; [congruence|congruence|rewrite Hkr; exact Quo|].
          destruct (h_impl H kt MText); cbn [negb]; [|exact Quo]. cbn [vquote_if]. unfold vany. destruct (is_direct H n kt); [|discriminate]. destruct (isInlined H n kt); [|discriminate].
          destruct (_ || _); [|discriminate]. apply IHlen; auto.
  Qed.
  End Rec.

  Lemma marshaler_safe n k t ca q hp v : native t = false -> method_of H t ca = Some (k, hp) -> held H m (t, ca, q, v) -> readable_node H o (t, ca, q, v) ->
    vmarshaler H vcall o n k t hp v <> VOut.
  Proof.
    intros Hn Hm (Ht & l & Hr) Hs. apply (readable_plain _ _ _ _ Hn) in Hs. rewrite Hm in Hs. unfold vmarshaler. destruct hp; [apply vmethod_safe|].
    apply shape in Hr.
    destruct (under E t) eqn:Eu; try (destruct (is_direct H n t) as [[|]|] eqn:Ed; [exfalso; apply Hs; apply (is_direct_spec H n t true Ed); reflexivity | apply vmethod_safe | discriminate]).
    - destruct Hr as [->|(td & w & ->)]; [discriminate | apply vmethod_safe].
    - destruct Hr as [->|(w & ->)]; [discriminate | apply vmethod_safe].
  Qed.

  Lemma venc_len n t ca v b : held H m (t, ca, false, v) ->
    ((t = TTime /\ opt unixTime = false) \/ (native t = false /\ exists hp, method_of H t ca = Some (MText, hp))) ->
    venc H vcall o n t ca false v = VRet b None -> (2 <= length b)%nat.
  Proof.
    intros (Ht & l & Hr) Hc. destruct n as [|n]; [discriminate|]. cbn [venc]. destruct Hc as [(-> & Hu)|(Hn & hp & Hm)].
    - cbn [native]. cbn [vnative]. destruct v; try discriminate. apply encode_time_len; [|exact Hu]. destruct (inv_time _ _ _ _ _ Hr) as (_ & _ & Hg). exact Hg.
    - rewrite Hn, Hm. unfold vmarshaler. destruct hp; [apply vmethod_text_len|].
      destruct (under E t); try (destruct (is_direct H n t) as [[|]|]; try discriminate; apply vmethod_text_len); destruct v; try discriminate; try (intros [= <-]; cbn; lia); apply vmethod_text_len.
  Qed.

  Theorem venc_safe n : forall t ca q v, held H m (t, ca, q, v) -> all_readable (t, ca, q, v) -> venc H vcall o n t ca q v <> VOut.
  Proof.
    induction n as [|n IH]; intros t ca q v Hh Ha; [discriminate|]. cbn [venc]. destruct (native t) eqn:En.
    - eapply native_safe; eauto. intros. eapply venc_len; eauto.
    - destruct (method_of H t ca) as [[k hp]|] eqn:Em.
      + eapply marshaler_safe; eauto. apply readable_here. exact Ha.
      + eapply kind_safe; eauto; [intros; eapply venc_len; eauto | split; assumption].
  Qed.

  Theorem venc_any_safe n t v w : repr_any H m (Some (t, w)) (VIface t v) -> dyn_ok H t -> all_readable (t, is_ptr H t, false, v) -> venc_any H vcall o n t v <> VOut.
  Proof.
    intros Hr Hd Ha. unfold venc_any. apply vany_safe; auto; [intros; apply venc_safe; assumption | eapply any_held; eauto].
  Qed.
End Safe.
