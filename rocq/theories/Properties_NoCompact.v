(** C62: NoCompact leaves the JSON of users as it is; without it the document
    is the compact form of the document with it. *)
From Coq Require Import Permutation Sorted.
From Verif Require Import Base Utf8 JsonSpec NumberModel NumberProof OptionsModel EscapeModel EscapeProof JsonParse StrictParse CompactModel CompactProof CompactText IntModel IntProof TypesModel TypesFacts TagsModel TagsProof CalendarSpec TimeModel TimeProof
  FloatModel FloatProof LeafModel LeafProof MemModel FieldsModel FieldsProof InstrModel ExecModel ValueModel ExecMono ExecProof HostFacts VencFacts MarshalThm DocSpec EntriesFacts DocLeaf PartFacts DocProof SafeProof ApiFacts
  PartsThm ShapeThm ShuffleThm TextThm CallFacts MethodsThm ExampleHost ExampleConst ExampleRead Properties_Options Properties_Strings Properties_Numbers Properties_Fields Properties_Members Properties_Maps Properties_Api Properties_Marshalers Properties_Safe Properties_Frame FieldsThm FieldsSpec Properties_Lossless Properties_Html.

(** ** Compaction, piece by piece *)
Lemma ct_app html a y : compact_text html a y -> forall b z, compact_text html b z -> compact_text html (a ++ b) (y ++ z).
Proof.
  induction 1 as [|c s y Hc _ IH|p p' s y Hp _ IH|c s y Hc Hn _ IH]; intros b z Hb; cbn [app]; [exact Hb | apply ct_space; auto | | apply ct_token; auto].
  rewrite <- !app_assoc. cbn [app]. apply ct_string; auto.
Qed.
Lemma ct_tokens html l : Forall (fun c => 33 <= c < 127 /\ ~ In c [34; 60; 62; 38]) l -> compact_text html l l.
Proof. intros F. rewrite <- (app_nil_r l). apply compact_app_tokens; [exact F | constructor]. Qed.
Lemma ct_self html lax j s : json no_ws lax j s -> bytes_ok s -> Properties_Safe.kept html s -> compact_text html s s.
Proof. intros J Hb K. apply (compact_text_of html lax j s); [apply json_no_ws_text; exact J | exact Hb|]. assert (X := compact_id html lax j s J Hb K). rewrite appendCompactJSON_spec in X by exact Hb. exact X. Qed.

(** The names of members. *)
Lemma field_name_key H vcall (OK : host_ok H vcall) k t fs f : typ_ok (h_letter H) (h_udigit H) t -> structFields H k t = Some fs -> In f fs ->
  exists rs, key_name (f_name f) rs /\ Forall (fun r => r <> 0x2028 /\ r <> 0x2029) rs.
Proof.
  intros Ht Hs Hf. destruct (structFields_data H (ok_wf _ _ OK) t Ht k fs f Hs Hf) as (p & sq & w & i & v & opts & A1 & A2 & A3 & _).
  destruct (wf_tables _ (ok_wf _ _ OK)) as (_ & _ & HT).
  destruct A3 as (fs' & d & n & B1 & B2 & _ & _ & [((Hn & rs & Hu & Hr) & -> & _)|(_ & -> & _)]).
  - exists rs. split.
    + split; [exact Hn|]. split; [exact Hu|]. eapply Forall_impl; [|exact Hr]. intros r (Hsc & [C|C]).
      * destruct (valid_chars_ascii r C) as (? & ? & ?). unfold key_rune. repeat split; auto; lia.
      * destruct (HT r C) as (? & ? & ? & _). unfold key_rune. repeat split; auto; lia.
    + eapply Forall_impl; [|exact Hr]. intros r (Hsc & [C|C]).
      * destruct (valid_chars_ascii r C) as (? & ? & ?). lia.
      * destruct (HT r C) as (_ & _ & _ & ? & ? & _). auto.
  - assert (Hw : typ_ok (h_letter H) (h_udigit H) w) by (eapply path_ok; eauto; apply (ok_wf _ _ OK)). assert (Gw := under_ok H (ok_wf _ _ OK) w Hw). unfold struct_of in B1. rewrite B1 in Gw.
    apply typ_ok_struct in Gw. rewrite Forall_forall in Gw. specialize (Gw _ (nth_error_In _ _ B2)). cbn [fst snd] in Gw. destruct Gw as (_ & (Hn & rs & Hu & Hi) & _).
    exists rs. split.
    + split; [exact Hn|]. split; [exact Hu|]. eapply Forall_impl; [|exact Hi]. intros r (Hsc & Hr). unfold key_rune.
      assert (HT' := HT r). split; [exact Hsc|]. destruct Hr as [->|[C|[C|[C|[C|C]]]]]; try lia;
        [destruct (HT' (or_introl C)) as (? & ? & ? & _) | destruct (HT' (or_intror C)) as (? & ? & ? & _)]; auto.
    + eapply Forall_impl; [|exact Hi]. intros r (Hsc & Hr). assert (HT' := HT r). destruct Hr as [->|[C|[C|[C|[C|C]]]]]; try lia;
        [destruct (HT' (or_introl C)) as (_ & _ & _ & ? & ? & _) | destruct (HT' (or_intror C)) as (_ & _ & _ & ? & ? & _)]; auto.
Qed.

(** Sorting by key keeps a relation between the members. *)
Lemma sorted_rel (R : bytes * bytes -> bytes * bytes -> Prop) (srt : list (bytes * bytes) -> list (bytes * bytes)) :
  (forall a b, R a b -> fst a = fst b) ->
  (forall l, Permutation l (srt l) /\ StronglySorted (fun a b => key_le (fst a) (fst b)) (srt l)) ->
  forall l l', Forall2 R l l' -> NoDup (map fst l) -> Forall2 R (srt l) (srt l').
Proof.
  intros Rk S l l' F Nd. destruct (S l) as [P1 S1]. destruct (S l') as [P2 S2]. destruct (Forall2_perm R l (srt l) P1 l' F) as (k & Fk & Pk).
  assert (Ks : forall a b, Forall2 R a b -> map fst a = map fst b) by (induction 1; cbn [map]; [reflexivity | f_equal; auto]).
  replace (srt l') with k; [exact Fk|]. apply sorted_unique.
  - eapply perm_trans; [apply Permutation_sym, Pk | exact P2].
  - rewrite <- (Ks _ _ Fk). eapply Permutation_NoDup; [apply Permutation_map, P1 | exact Nd].
  - clear - S1 Fk Rk. revert S1. induction Fk as [|a b la lb Rab Fk IH]; intros S1; constructor; inversion S1 as [|? ? S1' F1]; subst; [apply IH; exact S1'|].
    rewrite <- (Rk _ _ Rab). clear - Fk Rk F1. induction Fk as [|c d lc ld Rcd Fk IH]; constructor; inversion F1; subst; [rewrite <- (Rk _ _ Rcd); assumption | apply IH; assumption].
  - exact S2.
Qed.

(** Go strings in the value. *)
Lemma copied_text_ok H vcall (OK : host_ok H vcall) o m y s : held H m y -> text_in H o y s -> bytes_ok s.
Proof.
  intros Hh Hi. destruct Hi as [t ca q s P U|t ca q e vs b P U B V F|t ca q n e vs b P U B V F|t ca q kt et es s x0 P U S I|ca q es kt s x0 S I]; destruct Hh as [_ [l Hr]].
  - exact (proj2 (proj2 (inv_str _ _ _ _ _ Hr))).
  - eapply vbytes_ok; eauto. eapply byte_elem_under; eauto.
  - eapply vbytes_arr_ok; eauto. eapply byte_elem_under; eauto.
  - destruct (inv_map _ _ _ _ _ Hr) as (k & e & a & addrs & Q1 & Q2 & Q3 & Q4 & Q5 & Q6). destruct (In_nth_error _ _ I) as [j Hj]. destruct (nth_error addrs j) as [[ka va]|] eqn:Ej.
    2:{ apply nth_error_None in Ej. assert (j < length es)%nat by (apply nth_error_Some; congruence). lia. }
    destruct (Q6 _ _ _ _ _ Ej Hj) as [W1 W2]. exact (proj2 (proj2 (inv_str _ _ _ _ _ W1))).
  - destruct (inv_sync H m _ _ _ Hr) as (_ & efs & Q1 & Q2 & Q3). destruct (In_nth_error _ _ I) as [j Hj]. destruct (nth_error efs j) as [[ka va]|] eqn:Ej.
    2:{ apply nth_error_None in Ej. assert (j < length es)%nat by (apply nth_error_Some; congruence). lia. }
    destruct (Q3 _ _ _ _ _ Ej Hj) as [W1 W2]. destruct (any_held H vcall OK m _ _ _ false false W1) as [_ [l' Hl']]. exact (proj2 (proj2 (inv_str _ _ _ _ _ Hl'))).
Qed.

Section Compact.
  Variable H : host.
  Variable vcall : mkind -> typ -> val -> option Z -> bytes + Z.
  Hypothesis OK : host_ok H vcall.
  Hypothesis SH : shortest_ok (h_shortest H).
  Hypothesis SO : sort_ok H.
  Variables o o' : encOpts.
  Hypothesis On : has (o_flags o) noCompact = false.
  Hypothesis Off : has (o_flags o') noCompact = true.
  Hypothesis ON : esc_on o.
  Hypothesis DV : dur_valid (o_durationFmt o) = true.
  Hypothesis Flags : forall f, In f [unixTime; noNumberValidation; noHTMLEscaping; unsortedMap; rawByteSlice; byteArrayAsString; nilMapEmpty; nilSliceEmpty; noStringEscaping; noUTF8Coercion] -> has (o_flags o) f = has (o_flags o') f.
  Hypothesis Ctx : o_ctx o = o_ctx o'.
  Hypothesis Lay : o_timeLayout o = o_timeLayout o'.
  Hypothesis Dur : o_durationFmt o = o_durationFmt o'.
  Hypothesis Den : forall s, isDeniedField o s = isDeniedField o' s.
  Variable m : mem.
  Notation E := (h_env H).
  Notation html := (negb (has (o_flags o) noHTMLEscaping)).
  Notation ct := (compact_text html).
  Ltac flags := rewrite Flags by (cbn [In]; tauto).

  (** Text without the characters that compaction escapes. *)
  Definition untouched (s : bytes) : Prop := embeddable s /\ (html = true -> no_html s).

  (** Texts that reach the document as they are have none of the characters
      compaction escapes, sorted keys are distinct, and the text of a field that
      is left out when null ends with null in both documents or in none. *)
  Definition compactable (y : node) : Prop :=
    let '(t, ca, q, v) := y in
    (forall s, supplied H vcall o y false s -> untouched s) /\
    (has (o_flags o) unsortedMap = false -> distinct_keys H vcall o y) /\
    (forall fs0 n fs f ft x b b', DocSpec.plain H t ca -> under E t = TStruct fs0 -> structFields H n t = Some fs -> In f fs -> shown H o t v f ft x -> drops_null H f ft ->
       bytes_of H vcall o (ft, ca, quoted H f ft, x) b -> bytes_of H vcall o' (ft, ca, quoted H f ft, x) b' -> (ends_null b <-> ends_null b')).
  Definition all_fine (x : node) : Prop := all_sound H vcall o false x /\ forall y, part H o x y -> compactable y.

  Lemma fine_child x y : all_fine x -> child H o x y -> all_fine y.
  Proof. intros [A B] Hc. split; [|intros z Hz; apply B; eapply part_step; eauto]. intros z Hz. apply A. eapply part_step; eauto. Qed.

  (** JSON given by users is valid. *)
  Lemma given_json y s : sound_node H vcall o false y -> supplied H vcall o y true s -> valid_json s.
  Proof.
    destruct y as [[[t ca] q] v]. intros A S.
    assert (M : forall k hp td w, method_of H t ca = Some (k, hp) -> receiver H t hp v td w -> vcall k td w (ctx_of o k) = inl s -> true = match k with MJson => negb (has (o_flags o) noCompact) | _ => false end ->
      (forall td w b, receiver H t hp v td w -> vcall k td w (ctx_of o k) = inl b -> result_sound o false k b) -> valid_json s).
    { intros k hp td w _ Hr Hc Hk G. specialize (G _ _ _ Hr Hc). destruct k; try discriminate Hk. cbn [result_sound] in G. rewrite On in G. exact (G eq_refl). }
    destruct (native t) eqn:En.
    - destruct t; try discriminate En; destruct v; cbn [supplied] in S; try contradiction; destruct S as [S1 S2]; try discriminate S1.
      specialize (A _ S2). destruct A as [j Hj]. rewrite On in Hj. exists j. exact Hj.
    - assert (S' : exists k hp td w, method_of H t ca = Some (k, hp) /\ receiver H t hp v td w /\ vcall k td w (ctx_of o k) = inl s /\ true = match k with MJson => negb (has (o_flags o) noCompact) | _ => false end) by (destruct t; try discriminate En; exact S).
      destruct S' as (k & hp & td & w & S1 & S2 & S3 & S4). apply (M k hp td w S1 S2 S3 S4). destruct t; try discriminate En; cbn [sound_node] in A; rewrite S1 in A; exact A.
  Qed.

  Lemma untouched_app a b : untouched a -> untouched b -> untouched (a ++ b).
  Proof. intros [A1 A2] [B1 B2]. split; [|intros Q; apply no_html_app; auto]. rewrite embeddable_clean in *. apply clean_app; assumption. Qed.
  Lemma untouched_quote : untouched [34].
  Proof. split; [apply embeddable_clean, clean_asciis; repeat constructor; lia | intros _; apply no_html_bytes; repeat constructor; discriminate]. Qed.
  Lemma untouched_escaped s : bytes_ok s -> untouched (escaped o s).
  Proof.
    intros Hb. destruct ON as [F1 F2]. destruct (segments_total s Hb) as (segs & Hsg). split.
    - rewrite (escaped_segments o s segs Hb Hsg F1), F2. destruct (escaped_runes (has (o_flags o) noHTMLEscaping) s segs Hb Hsg) as (rs & Hr & Ho). exists rs. split; [exact Hr|].
      eapply Forall_impl; [|exact Ho]. intros r (_ & _ & _ & X). exact (X eq_refl).
    - intros Q. apply escaped_no_html; [exact Hb | exact F1 | destruct (has (o_flags o) noHTMLEscaping); [discriminate | reflexivity]].
  Qed.
  Lemma untouched_name name rs : key_name name rs -> Forall (fun r => r <> 0x2028 /\ r <> 0x2029) rs -> untouched (ValueModel.key_text o name).
  Proof.
    intros (Hn & Hu & Hk) Hsp. unfold ValueModel.key_text. destruct (has (o_flags o) noHTMLEscaping) eqn:Q.
    - unfold key_raw. change (34 :: name ++ [34; 58]) with ([34] ++ name ++ [34; 58]). split; [|intros X; rewrite Q in X; discriminate X]. apply embeddable_clean. apply clean_app; [apply clean_ascii; [lia | reflexivity]|].
      apply clean_app; [apply embeddable_clean; exists rs; auto|]. apply clean_asciis. repeat constructor; lia.
    - unfold key_esc. change (34 :: html_escape name ++ [34; 58]) with ([34] ++ html_escape name ++ [34; 58]). destruct (key_esc_jchars _ _ Hu Hk) as [_ C]. split.
      + apply embeddable_clean. apply clean_app; [apply clean_ascii; [lia | reflexivity]|].
        apply clean_app; [|apply clean_asciis; repeat constructor; lia]. destruct C as (rs' & U' & F'). exists rs'. split; [exact U'|].
        eapply Forall_impl; [|exact F']. intros r (A & B & D & _). split; [exact A|]. split; [exact B|]. split; [exact D | discriminate].
      + intros _. apply no_html_app; [apply no_html_bytes; repeat constructor; discriminate|]. apply no_html_app; [apply no_html_clean; exact C | apply no_html_bytes; repeat constructor; discriminate].
  Qed.
  Lemma untouched_self j s : json no_ws false j s -> untouched s -> ct s s.
  Proof. intros J [(rs & U & F) K]. eapply ct_self; [exact J | eapply utf8_string_bytes; exact U|]. split; [exact K | apply embeddable_separators; exists rs; auto]. Qed.

  Lemma node_untouched n t ca q v out : held H m (t, ca, q, v) -> all_fine (t, ca, q, v) -> venc H vcall o n t ca q v = VRet out None -> untouched out.
  Proof.
    intros Hh [Ha Hc] Hr. eapply (venc_text H vcall o untouched); [..|exact Hr].
    - exact untouched_app.
    - intros s (rs & Hu & Hf). split.
      + exists rs. split; [exact Hu|]. eapply Forall_impl; [|exact Hf]. unfold safe_rune. cbn. tauto.
      + intros _. apply (no_html_runes s rs Hu). eapply Forall_impl; [|exact Hf]. unfold safe_rune. cbn. tauto.
    - exact untouched_escaped.
    - exact untouched_name.
    - exact OK.
    - exact SH.
    - exact SO.
    - exact Hh.
    - intros y s Hp Ho. apply outside_supplied in Ho. destruct Ho as [Ho|(b & Ho & ->)]; [specialize (Hc y Hp); destruct y as [[[t' ca'] q'] v']; apply Hc, Ho|].
      destruct (valid_json_utf8 _ (given_json y b (Ha y Hp) Ho)) as (rs & Hu). split.
      + destruct (cs_clean html b rs Hu false false) as (rs' & U' & F'). exists rs'. split; [exact U'|]. eapply Forall_impl; [|exact F']. intros r (_ & A & B & _). auto.
      + intros ->. apply cs_no_html.
  Qed.
  Lemma node_self n t ca q v out : held H m (t, ca, q, v) -> all_fine (t, ca, q, v) -> venc H vcall o n t ca q v = VRet out None -> ct out out.
  Proof.
    intros Hh Hf Hr. destruct (venc_doc H vcall OK SH SO o ON DV m false n t ca q v out Hh (proj1 Hf) Hr) as (j & _ & Hj). eapply untouched_self; [exact Hj|]. eapply node_untouched; eauto.
  Qed.

  Definition crel (r r' : vres) : Prop :=
    match r, r' with
    | VRet b None, VRet b' None => ct b' b
    | VRet _ (Some e), VRet _ (Some e') => e = e'
    | VOut, VOut | VFuel, VFuel => True
    | _, _ => False
    end.
  Lemma crel_same r : (forall b, r = VRet b None -> ct b b) -> crel r r.
  Proof. destruct r as [b [e|]| |]; cbn [crel]; auto. Qed.
  Lemma crel_then pre pre' r r' k k' : ct pre' pre -> crel r r' -> (forall x x', ct x' x -> crel (k x) (k' x')) -> crel (vthen pre r k) (vthen pre' r' k').
  Proof. intros Hp Hr Hk. destruct r as [b [e|]| |], r' as [b' [e'|]| |]; cbn [crel vthen] in *; try contradiction; auto. apply Hk, ct_app; assumption. Qed.

  Lemma string_same s : bytes_ok s -> encode_string [] s o = encode_string [] s o'.
  Proof.
    intros Hb. rewrite !encode_string_body by exact Hb. destruct (segments_total s Hb) as (segs & Hsg). rewrite (escaped_segments o s segs Hb Hsg (proj1 ON)).
    assert (Esc' : has (o_flags o') noStringEscaping = false) by (rewrite <- Flags by (cbn [In]; tauto); apply ON). rewrite (escaped_segments o' s segs Hb Hsg Esc').
    do 2 flags. reflexivity.
  Qed.
  Lemma qstring_same s : bytes_ok s -> encode_quoted_string [] s o = encode_quoted_string [] s o'.
  Proof.
    intros Hb. unfold encode_quoted_string. rewrite !appendEscapedBytes_app by exact Hb. do 2 f_equal. destruct (segments_total s Hb) as (segs & Hsg). rewrite (escaped_segments o s segs Hb Hsg (proj1 ON)).
    assert (Esc' : has (o_flags o') noStringEscaping = false) by (rewrite <- Flags by (cbn [In]; tauto); apply ON). rewrite (escaped_segments o' s segs Hb Hsg Esc').
    do 2 flags. reflexivity.
  Qed.
  Lemma string_self s : bytes_ok s -> ct (encode_string [] s o) (encode_string [] s o).
  Proof.
    intros Hb. destruct (string_units_total s Hb) as (us & Hu). eapply untouched_self; [apply encode_string_json; [exact Hb | exact ON | exact Hu]|].
    rewrite encode_string_body by exact Hb. change (34 :: escaped o s ++ [34]) with ([34] ++ escaped o s ++ [34]). repeat apply untouched_app; try apply untouched_quote. apply untouched_escaped, Hb.
  Qed.
  Lemma name_self k t fs f : typ_ok (h_letter H) (h_udigit H) t -> structFields H k t = Some fs -> In f fs ->
    ValueModel.key_text o (f_name f) = ValueModel.key_text o' (f_name f) /\ ct (ValueModel.key_text o (f_name f)) (ValueModel.key_text o (f_name f)).
  Proof.
    intros Ht Hs Hf. split; [unfold ValueModel.key_text; flags; reflexivity|]. destruct (field_name_key H vcall OK k t fs f Ht Hs Hf) as (rs & Hk & Hn). assert (U := untouched_name _ _ Hk Hn).
    destruct (key_text_doc o false (f_name f) rs Hk) as (kk & us & Q & _ & J). rewrite Q in *. apply ct_app; [|apply ct_tokens; repeat constructor; cbn [In]; lia].
    destruct U as [(rs' & U & F) N]. assert (Hb := utf8_string_bytes _ _ U). rewrite bytes_ok_app in Hb. eapply ct_self; [exact J | apply Hb|]. split.
    - intros Q'. specialize (N Q'). unfold no_html in *. rewrite !in_app_iff in N. tauto.
    - assert (S : separator_free (kk ++ [58])) by (apply embeddable_separators; exists rs'; auto). intros a c b Hc ->. apply (S a c (b ++ [58]) Hc). rewrite <- !app_assoc. reflexivity.
  Qed.

  (** ** Methods *)
  Lemma json_method t td w : (forall b, vcall MJson td w None = inl b -> valid_json b) -> crel (vmethod vcall o MJson t td w) (vmethod vcall o' MJson t td w).
  Proof.
    intros A. cbn [vmethod]. destruct (vcall MJson td w None) as [b|e] eqn:Ec; [|reflexivity]. cbn [encode_json_result]. assert (Hb := ok_bytes _ _ OK _ _ _ _ _ Ec). rewrite On, Off.
    destruct (A b eq_refl) as [j Hj]. assert (V : json_valid b = true) by (apply json_valid_correct; [exact Hb | exists j; apply json_text_of_lax with (lax := false); exact Hj]). rewrite V. cbn [negb lift crel app].
    rewrite appendCompactJSON_spec by exact Hb. apply (compact_text_of html false j b Hj Hb). reflexivity.
  Qed.
  Lemma marshaler_compact n t ca q hp v : native t = false -> method_of H t ca = Some (MJson, hp) -> (forall s, supplied H vcall o (t, ca, q, v) true s -> valid_json s) ->
    crel (vmarshaler H vcall o n MJson t hp v) (vmarshaler H vcall o' n MJson t hp v).
  Proof.
    intros Hn Hm A. assert (Nl : crel (VRet l_null None) (VRet l_null None)) by (apply ct_tokens; repeat constructor; cbn [In]; lia).
    assert (Go : forall t' td w, receiver H t hp v td w -> crel (vmethod vcall o MJson t' td w) (vmethod vcall o' MJson t' td w)).
    { intros t' td w Hrc. apply json_method. intros b Hc. apply A.
      assert (X : exists k0 hp0 td0 w0, method_of H t ca = Some (k0, hp0) /\ receiver H t hp0 v td0 w0 /\ vcall k0 td0 w0 (ctx_of o k0) = inl b /\ true = match k0 with MJson => negb (has (o_flags o) noCompact) | _ => false end).
      { exists MJson, hp, td, w. rewrite On. auto. }
      destruct t; try discriminate Hn; exact X. }
    unfold vmarshaler. destruct hp; [exact (Go _ _ _ (rc_addr H t v))|].
    destruct (under E t) eqn:Eu;
    try (destruct (is_direct H n t) as [[|]|]; [exact I | | exact I]; refine (Go _ _ _ (rc_val H t v _ _));
         [unfold is_iface; rewrite Eu; reflexivity | unfold is_ptr; rewrite Eu; discriminate]).
    - destruct v; try exact I; [exact Nl|]. exact (Go _ _ _ (rc_dyn H t _ _ _ Eu)).
    - destruct v; try exact I; [exact Nl|].
      refine (Go _ _ _ (rc_val H t _ _ _)); [unfold is_iface; rewrite Eu; reflexivity | discriminate].
  Qed.
  Lemma method_same n k t hp v : k <> MJson -> vmarshaler H vcall o n k t hp v = vmarshaler H vcall o' n k t hp v.
  Proof.
    intros Hk. assert (Go : forall t' td w, vmethod vcall o k t' td w = vmethod vcall o' k t' td w) by (intros; destruct k; cbn [vmethod]; rewrite ?Ctx; first [reflexivity | contradiction]).
    unfold vmarshaler. destruct hp; [apply Go|]. destruct (under E t); try (destruct (is_direct H n t) as [[|]|]; auto; fail); destruct v; auto.
  Qed.

  (** ** Maps *)
  Definition key_rel (r r' : vres) : Prop := crel r r' /\ forall b, r = VRet b None -> r' = VRet b None.
  Lemma unsorted_compact es es' : Forall2 (fun e e' => crel (fst e) (fst e') /\ crel (snd e) (snd e')) es es' ->
    forall first out out', ct out' out -> crel (vunsorted es first out) (vunsorted es' first out').
  Proof.
    induction 1 as [|[k v] [k' v'] es es' [K V] _ IH]; intros first out out' Ho; cbn [vunsorted]; [exact Ho|]. cbn [fst snd] in *.
    assert (T : forall c, In c [44; 58] -> ct [c] [c]) by (intros c Hc; apply ct_tokens; cbn [In] in Hc; repeat constructor; cbn [In]; lia).
    apply crel_then; [destruct first; [exact Ho | apply ct_app; [exact Ho | apply T; cbn; tauto]] | exact K|]. intros x x' Hx. apply crel_then; [apply ct_app; [exact Hx | apply T; cbn; tauto] | exact V|].
    intros y y' Hy. apply IH, Hy.
  Qed.
  Definition kv_rel (a b : bytes * bytes) : Prop := fst a = fst b /\ ct (snd b) (snd a).
  Definition cfill (r r' : vfill_res) : Prop :=
    match r, r' with VFOk l, VFOk l' => Forall2 kv_rel l l' | VFErr e, VFErr e' => e = e' | VFOut, VFOut | VFFuel, VFFuel => True | _, _ => False end.
  Lemma fill_compact es es' : Forall2 (fun e e' => key_rel (fst e) (fst e') /\ crel (snd e) (snd e')) es es' ->
    forall acc acc', Forall2 kv_rel acc acc' -> cfill (vfill es acc) (vfill es' acc').
  Proof.
    induction 1 as [|[k v] [k' v'] es es' ((K & N) & V) _ IH]; intros acc acc' Ha; cbn [vfill]; [exact Ha|]. cbn [fst snd] in *.
    destruct k as [kb [e|]| |], k' as [kb' [e'|]| |]; cbn [crel] in K; try contradiction; cbn [cfill]; auto.
    assert (Q := N kb eq_refl). injection Q as ->. destruct (length kb <? 2)%nat; [exact I|].
    destruct v as [vb [e|]| |], v' as [vb' [e'|]| |]; cbn [crel] in V; try contradiction; cbn [cfill]; auto.
    apply IH. apply Forall2_app; [exact Ha|]. constructor; [|constructor]. split; [reflexivity|]. cbn [snd].
    apply ct_app; [exact K|]. apply ct_app; [apply ct_tokens; repeat constructor; cbn [In]; lia | exact V].
  Qed.
  Lemma join_compact l l' : Forall2 kv_rel l l' -> forall first out out', ct out' out -> ct (join_kvs l' first out') (join_kvs l first out).
  Proof.
    induction 1 as [|[k kv] [k' kv'] l l' [_ R] _ IH]; intros first out out' Ho; cbn [join_kvs]; [exact Ho|]. cbn [snd] in R. apply IH.
    destruct first; repeat apply ct_app; auto. apply ct_tokens; repeat constructor; cbn [In]; lia.
  Qed.
  Lemma entries_compact es es' : Forall2 (fun e e' => key_rel (fst e) (fst e') /\ crel (snd e) (snd e')) es es' ->
    (has (o_flags o) unsortedMap = false -> forall kvs, Forall2 gives es kvs -> NoDup (map (fun kv => sort_key (fst kv)) kvs)) ->
    crel (ventries H o es) (ventries H o' es').
  Proof.
    assert (B : ct [123] [123]) by (apply ct_tokens; repeat constructor; cbn [In]; lia).
    intros F S. unfold ventries. rewrite <- (Flags unsortedMap) by (cbn [In]; tauto).
    apply crel_then; [constructor | | intros x x' Hx; cbn [crel]; apply ct_app; [exact Hx | apply ct_tokens; repeat constructor; cbn [In]; lia]].
    destruct (has (o_flags o) unsortedMap).
    - apply unsorted_compact; [|exact B]. clear - F. induction F as [|e e' es es' [[F1 _] F2] _ IH]; constructor; auto.
    - specialize (S eq_refl). unfold vsorted. assert (G := fill_compact es es' F [] [] (Forall2_nil _)).
      destruct (vfill es []) as [l|e| |] eqn:V, (vfill es' []) as [l'|e'| |]; cbn [cfill] in G; try contradiction; cbn [crel]; auto.
      apply vfill_ret in V. destruct V as (kvs & Hg & _ & ->). cbn [app] in *. apply join_compact; [|exact B]. apply sorted_rel; [intros a b [Q _]; exact Q | exact SO | exact G|].
      rewrite map_map. apply S, Hg.
  Qed.

  Section Step.
    Variable n : nat.
    Notation rec := (venc H vcall o n).
    Notation rec' := (venc H vcall o' n).

    Lemma any_compact k t v : crel (rec t (is_ptr H t) false v) (rec' t (is_ptr H t) false v) -> crel (vany H rec k t v) (vany H rec' k t v).
    Proof. intros A. unfold vany. destruct (is_direct H k t); [|exact I]. destruct (isInlined H k t); [|exact I]. destruct (Bool.eqb b b0 || opaque H t); [exact A | exact I]. Qed.

    Lemma elems_compact e ca vs : (forall v, In v vs -> crel (rec e ca false v) (rec' e ca false v)) ->
      forall first out out', ct out' out -> crel (velems rec e ca vs first out) (velems rec' e ca vs first out').
    Proof.
      assert (T : forall c, In c [44; 91; 93] -> ct [c] [c]) by (intros c Hc; apply ct_tokens; cbn [In] in Hc; repeat constructor; cbn [In]; lia).
      assert (T2 : ct [91; 93] [91; 93]) by (apply ct_tokens; repeat constructor; cbn [In]; lia).
      induction vs as [|v vs IH]; intros A first out out' Ho; cbn [velems]; [destruct first; cbn [crel]; apply ct_app; auto; apply T; cbn; tauto|].
      apply crel_then; [apply ct_app; [exact Ho|]; destruct first; apply T; cbn; tauto | apply A; left; reflexivity|]. intros x x' Hx. apply IH; [|exact Hx]. intros w Hw. apply A. right. exact Hw.
    Qed.

    Lemma fields_compact t ca v fs :
      Forall (fun f => ValueModel.key_text o (f_name f) = ValueModel.key_text o' (f_name f) /\ ct (ValueModel.key_text o (f_name f)) (ValueModel.key_text o (f_name f))) fs ->
      (forall f ft x, In f fs -> shown H o t v f ft x -> crel (rec ft ca (quoted H f ft) x) (rec' ft ca (quoted H f ft) x)) ->
      (forall f ft x b b', In f fs -> shown H o t v f ft x -> drops_null H f ft -> rec ft ca (quoted H f ft) x = VRet b None -> rec' ft ca (quoted H f ft) x = VRet b' None -> tail_null b = tail_null b') ->
      forall first out out', ct out' out -> crel (vfields H o rec t ca v fs first out) (vfields H o' rec' t ca v fs first out').
    Proof.
      assert (T : forall c, In c [44; 123; 125] -> ct [c] [c]) by (intros c Hc; apply ct_tokens; cbn [In] in Hc; repeat constructor; cbn [In]; lia).
      assert (T2 : ct [123; 125] [123; 125]) by (apply ct_tokens; repeat constructor; cbn [In]; lia).
      induction 1 as [|f fs K _ IH]; intros A D first out out' Ho; cbn [vfields]; [destruct first; cbn [crel]; apply ct_app; auto; apply T; cbn; tauto|].
      assert (IH' := IH (fun g gt x Hg => A g gt x (or_intror Hg)) (fun g gt x b b' Hg => D g gt x b b' (or_intror Hg))). clear IH.
      rewrite <- Den. destruct (isDeniedField o (f_name f)) eqn:Ed; [apply IH', Ho|].
      destruct (negb (right_seq H t f)) eqn:Er; [exact I|]. destruct (vget (f_index f) v) as [[x|]|] eqn:Eg; [|apply IH', Ho | exact I].
      destruct (type_by_index H t (f_index f)) as [ft|] eqn:Et; [|exact I].
      destruct (f_omitNil f && vnil x) eqn:En; [apply IH', Ho|]. destruct (f_omitEmpty f && vempty x) eqn:Ee; [apply IH', Ho|]. cbn zeta.
      assert (Sh : shown H o t v f ft x).
      { split; [intros C; apply isDeniedField_spec in C; congruence|]. split; [split; assumption|].
        intros C. unfold dropped in C. destruct C as [[C1 C2]|[C1 C2]]; subst; rewrite C1, ?C2 in *; discriminate. }
      assert (X := A f ft x (or_introl eq_refl) Sh). specialize (D f ft x). fold (quoted H f ft).
      destruct (rec ft ca (quoted H f ft) x) as [b [er|]| |], (rec' ft ca (quoted H f ft) x) as [b' [er'|]| |]; cbn [crel] in X; try contradiction; cbn [crel]; auto.
      assert (Q : f_omitNil f && (h_impl H ft MJson || h_impl H (TPtr ft) MJson) && tail_null b = f_omitNil f && (h_impl H ft MJson || h_impl H (TPtr ft) MJson) && tail_null b').
      { destruct (f_omitNil f && (h_impl H ft MJson || h_impl H (TPtr ft) MJson)) eqn:Dn; [|reflexivity]. cbn [andb]. apply D; auto; [left; reflexivity|].
        apply andb_true_iff in Dn. destruct Dn as [Dn1 Dn2]. apply orb_true_iff in Dn2. split; assumption. }
      rewrite <- Q. destruct K as [K1 K2]. rewrite <- K1. destruct (f_omitNil f && (h_impl H ft MJson || h_impl H (TPtr ft) MJson) && tail_null b); destruct first; apply IH';
        repeat apply ct_app; auto; apply T; cbn; tauto.
    Qed.
  End Step.
  Lemma quote_untouched q r b : (forall x, r = VRet x None -> untouched x) -> vquote_if q r = VRet b None -> untouched b.
  Proof.
    intros A Hq. destruct q; [|apply A; exact Hq]. apply vquote_ret in Hq. destruct Hq as (x & Hx & ->). change (34 :: x ++ [34]) with ([34] ++ x ++ [34]).
    repeat apply untouched_app; try apply untouched_quote. apply A, Hx.
  Qed.

  (** Keys are the same text in both documents. *)
  Lemma key_same n kt ca k : isString E kt = false -> key_sound H o kt ca k -> (isInteger E kt || h_impl H kt MText) = true ->
    venc H vcall o n kt ca false k = venc H vcall o' n kt ca false k.
  Proof.
    intros Es Ks Hi. destruct n as [|n]; [reflexivity|]. specialize (Ks Es). cbn [venc]. destruct (h_impl H kt MText).
    - destruct Ks as [(-> & _)|(Hn & (hp & Hm) & _)].
      + cbn [native vnative]. destruct k; try reflexivity. unfold encode_time. flags. rewrite Lay. reflexivity.
      + rewrite Hn, Hm. apply method_same. discriminate.
    - rewrite orb_false_r in Hi. destruct Ks as [(-> & _)|(Hn & Hm)].
      + cbn [native vnative]. destruct k; try reflexivity. unfold encode_duration. rewrite Dur. reflexivity.
      + rewrite Hn, Hm. unfold isInteger in Hi. unfold vkind. destruct (under E kt) eqn:Eu; try discriminate Hi. reflexivity.
  Qed.
  Lemma key_compact n kt ca k : isString E kt = false -> key_sound H o kt ca k -> (isInteger E kt || h_impl H kt MText) = true ->
    (h_impl H kt MText && is_ptr H kt && vnil k) = false -> held H m (kt, ca, false, k) -> all_fine (kt, ca, false, k) ->
    key_rel (vquote_if (negb (h_impl H kt MText)) (venc H vcall o n kt ca false k)) (vquote_if (negb (h_impl H kt MText)) (venc H vcall o' n kt ca false k)).
  Proof.
    intros Es Ks Hi Hn Hh Hf. rewrite <- (key_same n kt ca k Es Ks Hi). split; [|auto]. apply crel_same. intros b Hb.
    destruct (key_doc H vcall o m false (venc H vcall o n)) with (kt := kt) (ca := ca) (k := k) (out := b) as (us & _ & J); auto.
    - intros t' ca' q' v' out' Hh' Ha' Hr'. eapply (venc_doc H vcall OK SH SO o ON DV m false); eauto.
    - apply Hf.
    - eapply untouched_self; [exact J|]. eapply quote_untouched; [|exact Hb]. intros x Hx. eapply node_untouched; eauto.
  Qed.
  Lemma str_key_compact s : bytes_ok s -> key_rel (VRet (encode_string [] s o) None) (VRet (encode_string [] s o') None).
  Proof. intros Hb. rewrite <- (string_same s Hb). split; [apply string_self, Hb | auto]. Qed.

  Theorem venc_compact n : forall t ca q v, held H m (t, ca, q, v) -> all_fine (t, ca, q, v) -> crel (venc H vcall o n t ca q v) (venc H vcall o' n t ca q v).
  Proof.
    induction n as [|n IH]; intros t ca q v Hh Hf; [exact I|].
    assert (C : forall t' ca' q' v', child H o (t, ca, q, v) (t', ca', q', v') -> held H m (t', ca', q', v') /\ all_fine (t', ca', q', v')).
    { intros t' ca' q' v' Hc. split; [eapply child_held; eauto | eapply fine_child; eauto]. }
    assert (CR : forall t' ca' q' v', child H o (t, ca, q, v) (t', ca', q', v') -> crel (venc H vcall o n t' ca' q' v') (venc H vcall o' n t' ca' q' v')).
    { intros t' ca' q' v' Hc. apply IH; apply C; exact Hc. }
    assert (He := proj2 Hf _ (part_refl _ _ _)). assert (So := proj1 Hf _ (part_refl _ _ _)).
    assert (Tx : forall s, text_in H o (t, ca, q, v) s -> bytes_ok s) by (intros s; apply (copied_text_ok H vcall OK o m); exact Hh).
    assert (Sm : venc H vcall o (S n) t ca q v = venc H vcall o' (S n) t ca q v -> crel (venc H vcall o (S n) t ca q v) (venc H vcall o' (S n) t ca q v)).
    { intros Q. rewrite <- Q. apply crel_same. intros b. apply node_self; assumption. }
    assert (Gv : forall s, supplied H vcall o (t, ca, q, v) true s -> valid_json s) by (intros s; apply given_json; exact So).
    assert (Br : ct [123] [123] /\ ct [91] [91] /\ ct [] []) by (split; [|split; [|constructor]]; apply ct_tokens; repeat constructor; cbn [In]; lia).
    cbn [venc] in *. destruct (native t) eqn:Nt.
    - destruct t; try discriminate Nt; destruct v; try exact I; cbn [vnative] in *.
      + apply Sm. unfold encode_time. flags. rewrite Lay. reflexivity.
      + apply Sm. unfold encode_duration. rewrite Dur. reflexivity.
      + apply Sm. unfold encode_number. flags. reflexivity.
      + apply Sm. reflexivity.
      + destruct (vbytes vs) as [b|] eqn:Eb; [|exact I]. cbn [encode_raw_message]. rewrite On, Off. cbn [lift crel app].
        assert (Hb : bytes_ok b) by (destruct Hh as (_ & l & Hl); eapply (vbytes_ok H m l TRawMessage (TInt KUint8)); eauto).
        destruct (Gv b) as [j Hj]; [cbn [supplied]; rewrite On; auto|]. rewrite appendCompactJSON_spec by exact Hb. apply (compact_text_of html false j b Hj Hb). reflexivity.
      + apply entries_compact.
        * apply Forall2_maps. intros [k x] Hi. cbn [fst snd]. split.
          -- unfold vsync_key. destruct k; try (split; [exact I | discriminate]); [split; [reflexivity | discriminate]|]. destruct (So _ _ _ Hi) as [Ks Kn]. destruct (isString E t) eqn:Es; cbn [negb andb].
             ++ destruct k; try (split; [exact I | discriminate]). apply str_key_compact, Tx. eapply ti_skey; eauto.
             ++ destruct (negb (isInteger E t) && negb (h_impl H t MText)) eqn:Ek; [split; [reflexivity | discriminate]|].
                assert (Hk : (isInteger E t || h_impl H t MText) = true) by (destruct (isInteger E t), (h_impl H t MText); try discriminate Ek; reflexivity).
                unfold vany. destruct (is_direct H n t); [|destruct (h_impl H t MText); (split; [exact I | discriminate])].
                destruct (isInlined H n t); [|destruct (h_impl H t MText); (split; [exact I | discriminate])].
                destruct (Bool.eqb b b0 || opaque H t); [|destruct (h_impl H t MText); (split; [exact I | discriminate])].
                destruct (C t (is_ptr H t) false k) as [C1 C2]; [eapply ch_skey; eauto|]. apply key_compact; auto.
                destruct (h_impl H t MText) eqn:Em; [|reflexivity]. destruct k; cbn [vnil]; rewrite ?andb_false_r; auto. exfalso. apply Kn; reflexivity.
          -- unfold vsync_val. destruct x; try exact I. apply any_compact, CR. eapply ch_sval. exact Hi.
        * intros Us kvs Hg. destruct He as (_ & D & _). apply (proj2 (D Us) es eq_refl eq_refl). revert Hg. apply gives_map. intros [k x] kv. apply gives_sync.
    - destruct (method_of H t ca) as [[k hp]|] eqn:Em.
      { destruct k; try (apply Sm; apply method_same; discriminate). eapply marshaler_compact; eauto. }
      assert (P : DocSpec.plain H t ca) by (split; assumption).
      assert (So' : match under E t, v with TMap kt _, VMap es => forall k v, In (k, v) es -> key_sound H o kt false k | _, _ => True end).
      { destruct t; try discriminate Nt; cbn [sound_node] in So; rewrite Em in So; destruct (under E _); try exact I; destruct v; try exact I; exact So. }
      unfold vkind in *.
      destruct (under E t) as [ |ik|fb| | | | | |ms|e|e|an e|kt et|fs|nn| | | | | ] eqn:Eu; try exact I; try reflexivity; try (apply Sm; reflexivity).
      + destruct v; try exact I. apply Sm. assert (Hb : bytes_ok s) by (apply Tx; constructor; assumption). destruct q; [rewrite (qstring_same s Hb) | rewrite (string_same s Hb)]; reflexivity.
      + destruct v; try exact I; [apply Sm; reflexivity|]. destruct ms; [exact I|]. apply any_compact, CR. constructor; assumption.
      + destruct v; try exact I; [apply Sm; reflexivity|]. apply CR. constructor; assumption.
      + destruct v; try exact I.
        * apply Sm. flags. reflexivity.
        * destruct (byte_elem H e) eqn:Be; [|apply (elems_compact n e true vs); [intros v Hv; apply CR; eapply ch_slice; eauto | apply Br]].
          apply Sm. destruct (vbytes vs) as [b|] eqn:Vb; [|reflexivity]. cbn [encode_byte_slice app] in *. rewrite <- (Flags rawByteSlice) by (cbn [In]; tauto). destruct (has (o_flags o) rawByteSlice) eqn:Rb; [|reflexivity].
          f_equal. apply string_same, Tx. eapply ti_slice; eauto.
      + destruct v; try exact I. rewrite <- (Flags byteArrayAsString) in * by (cbn [In]; tauto). destruct (byte_elem H e && has (o_flags o) byteArrayAsString) eqn:Be.
        * apply Sm. apply andb_true_iff in Be. destruct Be as [B1 B2]. destruct (vbytes vs) as [b|] eqn:Vb; [|reflexivity]. rewrite string_same; [reflexivity|]. apply Tx. eapply ti_array; eauto.
        * apply (elems_compact n e ca vs); [|apply Br]. intros v Hv. apply CR. eapply ch_array; eauto.
      + destruct (key_ok H kt) eqn:Ek; cbn [negb] in *; [|reflexivity]. destruct v; try exact I; [apply Sm; flags; reflexivity|]. destruct es as [|e0 es0]; [apply Sm; reflexivity|].
        remember (e0 :: es0) as es eqn:Qe. apply entries_compact.
        * apply Forall2_maps. intros [k x] Hi. cbn [fst snd]. split; [|apply CR; eapply ch_elem; eauto].
          unfold vkey. destruct (isString E kt) eqn:Es; [destruct k; try (split; [exact I | discriminate]); apply str_key_compact, Tx; eapply ti_key; eauto|].
          destruct (h_impl H kt MText && is_ptr H kt && vnil k) eqn:En.
          -- split; [|auto]. cbn [crel]. apply (ct_string html [] [] [] []); constructor.
          -- destruct (C kt false false k) as [C1 C2]; [eapply ch_key; eauto|]. apply key_compact; auto; [eapply So'; eauto|]. unfold key_ok in Ek. rewrite Es in Ek. exact Ek.
        * intros Us kvs Hg. destruct He as (_ & D & _). apply (proj1 (D Us) es kt et eq_refl P Eu Ek). revert Hg. apply gives_map. intros [k x] kv. apply gives_entry.
      + destruct v; try exact I. unfold vstruct in *. destruct (fields_of H t) eqn:Ef; [apply Sm; reflexivity|].
        destruct (structFields H n t) as [fs'|] eqn:Es; [|exact I]. apply (fields_compact n t ca (VStruct vs) fs').
        * apply Forall_forall. intros f Hf'. eapply name_self; eauto. apply Hh.
        * intros f ft x Hf' Hs. apply CR. eapply ch_field; eauto.
        * intros f ft x b b' Hf' Hs Hd Hb Hb'. destruct He as (_ & _ & D). assert (X := D fs n fs' f ft x b b' P Eu Es Hf' Hs Hd (ex_intro _ n Hb) (ex_intro _ n Hb')).
          rewrite <- !tail_null_spec in X. destruct (tail_null b), (tail_null b'); intuition congruence.
        * apply Br.
  Qed.
End Compact.

(** A call on a value and the same call with NoCompact added.  Without the
    option the document is the compact form of the document with it: white
    space between tokens is left out, and <, >, & (unless NoHTMLEscaping is
    given), U+2028 and U+2029 are escaped within strings.  The calls fail in the
    same way. *)
Theorem C62_compaction H vcall m t w v l1 l2 o : host_ok H vcall -> shortest_ok (h_shortest H) -> sort_ok H -> call H m t w v (l1 ++ l2) o ->
  ~ In (Some ONoCompact) (l1 ++ l2) -> ~ In (Some ONoStringEscaping) (l1 ++ l2) -> ~ In (Some ONoUTF8Coercion) (l1 ++ l2) ->
  all_sound H vcall o false (t, is_ptr H t, false, v) ->
  (forall y, part H o (t, is_ptr H t, false, v) y -> compactable H vcall o (config (l1 ++ Some ONoCompact :: l2)) y) ->
  exists r r', (forall x, marshal_returns H m (Some (t, w)) (l1 ++ l2) x <-> x = r) /\
    (forall x, marshal_returns H m (Some (t, w)) (l1 ++ Some ONoCompact :: l2) x <-> x = r') /\
    ((exists e, r = MErr e /\ r' = MErr e) \/
     exists b b', r = MOk b /\ r' = MOk b' /\ compact_text (negb (has (o_flags o) noHTMLEscaping)) b' b).
Proof.
  intros OK SH SO C N1 N2 N3 A B. set (o' := config (l1 ++ Some ONoCompact :: l2)) in *.
  assert (o = config (l1 ++ l2)) as ->.
  { assert (X := c_opts _ _ _ _ _ _ _ C). rewrite call_opts_config in X. destruct (validate _); [discriminate|]. injection X as <-. reflexivity. }
  set (o := config (l1 ++ l2)) in *.
  assert (Fl : forall y f, y <> ONoCompact -> In (y, f) flag_options -> has (o_flags o) f = has (o_flags o') f).
  { intros y f Hy Hi. destruct (flag_added ONoCompact l1 l2 y f Hi) as [X|X]; [congruence | exact X]. }
  assert (Nf : forall y f, In (y, f) flag_options -> ~ In (Some y) (l1 ++ l2) -> has (o_flags o) f = false).
  { intros y f Hi Hn. destruct (has (o_flags o) f) eqn:Q; [|reflexivity]. exfalso. apply Hn. apply (C16_flags (l1 ++ l2) y f Hi). exact Q. }
  assert (Ctx : o_ctx o = o_ctx o') by (destruct (ctx_added ONoCompact l1 l2) as [[c X]|X]; [discriminate | exact X]).
  assert (Lay : o_timeLayout o = o_timeLayout o') by (destruct (layout_added ONoCompact l1 l2) as [[c X]|X]; [discriminate | exact X]).
  assert (Dur : o_durationFmt o = o_durationFmt o') by (destruct (duration_added ONoCompact l1 l2) as [[c X]|X]; [discriminate | exact X]).
  assert (Al : o_allow o = o_allow o') by (destruct (allow_added ONoCompact l1 l2) as [[c X]|X]; [discriminate | exact X]).
  assert (De : o_deny o = o_deny o') by (destruct (deny_added ONoCompact l1 l2) as [[c X]|X]; [discriminate | exact X]).
  assert (DV : dur_valid (o_durationFmt o) = true) by (eapply call_opts_valid, C).
  assert (Ho : call_opts (l1 ++ Some ONoCompact :: l2) = Some o').
  { assert (X := c_opts _ _ _ _ _ _ _ C). rewrite call_opts_config in X |- *. fold o in X. fold o'. unfold validate in *. rewrite <- Ctx, <- Lay, <- Dur.
    destruct (o_ctx o); [|discriminate]. destruct (bytes_eqb (o_timeLayout o) []); [discriminate|]. destruct (negb (dur_valid (o_durationFmt o))); [discriminate | reflexivity]. }
  destruct (call_returns H vcall OK m t w v _ _ C) as (out & err & En & R).
  destruct (encodes_inv _ _ _ _ _ _ _ En) as [n Hn].
  assert (G : crel o (venc H vcall o n t (is_ptr H t) false v) (venc H vcall o' n t (is_ptr H t) false v)).
  { apply (venc_compact H vcall OK SH SO o o') with (m := m); auto.
    - apply (Nf ONoCompact); [cbn; tauto | exact N1].
    - apply (C16_flags _ ONoCompact noCompact ltac:(cbn; tauto)). apply in_or_app. right. left. reflexivity.
    - split; [apply (Nf ONoStringEscaping); [cbn; tauto | exact N2] | apply (Nf ONoUTF8Coercion); [cbn; tauto | exact N3]].
    - intros f Hf. cbn [In] in Hf. destruct Hf as [<-|[<-|[<-|[<-|[<-|[<-|[<-|[<-|[<-|[<-|[]]]]]]]]]]];
        [apply (Fl OUnixTime) | apply (Fl ONoNumberValidation) | apply (Fl ONoHTMLEscaping) | apply (Fl OUnsortedMap) | apply (Fl ORawByteSlice) | apply (Fl OByteArrayAsString)
         | apply (Fl ONilMapEmpty) | apply (Fl ONilSliceEmpty) | apply (Fl ONoStringEscaping) | apply (Fl ONoUTF8Coercion)]; try discriminate; cbn; tauto.
    - intros s. unfold isDeniedField. rewrite Al, De. reflexivity.
    - eapply call_held; [exact OK | exact C].
    - split; assumption. }
  rewrite Hn in G. destruct (venc H vcall o' n t (is_ptr H t) false v) as [out' err'| |] eqn:Hn'; [|destruct err; contradiction | destruct err; contradiction].
  assert (En' : encodes H vcall o' t v out' err') by (eapply (encodes_venc H vcall OK o' t v out' err' n); [eapply holds_tok; apply C | apply C | exact Hn']).
  exists (outcome out err), (outcome out' err'). split; [exact R|]. split.
  - intros x. apply (marshal_iff H vcall OK m t w v (l1 ++ Some ONoCompact :: l2) o' out' err'); [apply C | exact Ho | exact En'].
  - destruct err as [e|], err' as [e'|]; cbn [crel] in G; try contradiction; [left; exists e; subst; auto | right; exists out, out'; auto].
Qed.

(** []interface{}{"a<b", json.RawMessage(`[ "&" ]`), map[string]string{"k": ">"}} *)
Example C62_ex : let m := mem_of (plainH []) hr_t hr_v in let w := word_of (plainH []) hr_t hr_v in
  call (plainH []) m hr_t w hr_v [] default_opts /\
  all_sound (plainH []) plainV default_opts false (hr_t, is_ptr (plainH []) hr_t, false, hr_v) /\
  (forall y, part (plainH []) default_opts (hr_t, is_ptr (plainH []) hr_t, false, hr_v) y -> compactable (plainH []) plainV default_opts (config [Some ONoCompact]) y) /\
  exists b, marshal_returns (plainH []) m (Some (hr_t, w)) [] (MOk b) /\
    marshal_returns (plainH []) m (Some (hr_t, w)) [Some ONoCompact] (MOk (lit "[""a\u003cb"",[ ""&"" ],{""k"":""\u003e""}]")) /\
    compact_text true (lit "[""a\u003cb"",[ ""&"" ],{""k"":""\u003e""}]") b /\ b = lit "[""a\u003cb"",[""\u0026""],{""k"":""\u003e""}]".
Proof.
  cbn zeta. assert (C : call (plainH []) (mem_of (plainH []) hr_t hr_v) hr_t (word_of (plainH []) hr_t hr_v) hr_v [] default_opts) by (apply (plain_call [] 10); vm_compute; reflexivity).
  assert (A : all_sound (plainH []) plainV default_opts false (hr_t, is_ptr (plainH []) hr_t, false, hr_v)).
  { intros y Hy. apply hr_parts in Hy. cbn [In] in Hy.
    destruct Hy as [<-|[<-|[<-|[<-|[<-|[<-|[<-|[<-|[]]]]]]]]]; try exact I; try (cbn; discriminate).
    intros b Q. vm_compute in Q. injection Q as <-. exists (JArr [JStr [U16 38]]).  
    match goal with |- if ?c then _ else _ => let x := eval vm_compute in c in change c with x end. cbn iota.
    apply parse_strict_text; [apply bytes_okb_ok; reflexivity | vm_compute; reflexivity]. }
  assert (B : forall y, part (plainH []) default_opts (hr_t, is_ptr (plainH []) hr_t, false, hr_v) y -> compactable (plainH []) plainV default_opts (config [Some ONoCompact]) y).
  { intros y Hy. apply hr_parts in Hy. cbn [In] in Hy.
    destruct Hy as [<-|[<-|[<-|[<-|[<-|[<-|[<-|[<-|[]]]]]]]]]; (split; [|split; [intros _; split|]]).
    all: try (intros; discriminate).
    all: try (intros s (k & hp & td & w & Q & _); vm_compute in Q; discriminate).
    all: try (intros fs0 n fs f ft x b b' _ Q; vm_compute in Q; discriminate Q).
    - intros s (Q & _). discriminate.
    - intros es kt et [= <-] _ _ _ kvs F. inversion F as [|? kv ? l _ F']; subst. inversion F'; subst. repeat constructor. intros []. }
  split; [exact C|]. split; [exact A|]. split; [exact B|].
  destruct (C62_compaction (plainH []) plainV _ _ _ hr_v [] [] default_opts (plainH_ok [] eq_refl) ex_shortest (constH_sort _ _ _) C) as (r & r' & R & R' & X); [intros [] | intros [] | intros [] | exact A | exact B|].
  assert (M' : marshal_returns (plainH []) (mem_of (plainH []) hr_t hr_v) (Some (hr_t, word_of (plainH []) hr_t hr_v)) [Some ONoCompact] (MOk (lit "[""a\u003cb"",[ ""&"" ],{""k"":""\u003e""}]"))) by (exists 30%nat; split; [vm_compute; reflexivity | discriminate]).
  assert (M : marshal_returns (plainH []) (mem_of (plainH []) hr_t hr_v) (Some (hr_t, word_of (plainH []) hr_t hr_v)) [] (MOk (lit "[""a\u003cb"",[""\u0026""],{""k"":""\u003e""}]"))) by (exists 30%nat; split; [vm_compute; reflexivity | discriminate]).
  exists (lit "[""a\u003cb"",[""\u0026""],{""k"":""\u003e""}]"). split; [exact M|]. split; [exact M'|]. split; [|reflexivity]. apply R' in M'. apply R in M.
  destruct X as [(e & Q & _)|(b & b' & Q & Q' & X)]; [congruence|]. rewrite <- M in Q. rewrite <- M' in Q'. injection Q as <-. injection Q' as <-. exact X.
Qed.

(** The condition on fields left out when null is needed: with
    type M struct{ A int } whose MarshalJSON returns the null literal and a
    space, the field C M `json:",omitnil"` is left out without NoCompact and
    written with it. *)
Definition sp_result (k : mkind) (td : typ) (ctx : option Z) : bytes + Z := match k with MJson => inl (lit "null ") | _ => inr 0 end.
Definition sp_ds : list typ := [TStruct [fld "A" "" (TInt KInt)]; TStruct [fld "B" "" (TInt KInt); fld "C" ",omitnil" (TNamed 0)]].
Definition spH : host := constH sp_ds omit_impl sp_result.
Definition sp_v : val := VStruct [VInt 7; VStruct [VInt 0]].
Example C62_ex_null : let m := mem_of spH (TNamed 1) sp_v in let w := word_of spH (TNamed 1) sp_v in
  call spH m (TNamed 1) w sp_v [] default_opts /\
  marshal_returns spH m (Some (TNamed 1, w)) [] (MOk (lit "{""B"":7}")) /\
  marshal_returns spH m (Some (TNamed 1, w)) [Some ONoCompact] (MOk (lit "{""B"":7,""C"":null }")) /\
  ~ compact_text true (lit "{""B"":7,""C"":null }") (lit "{""B"":7}").
Proof.
  cbn zeta. split; [apply (const_call sp_ds omit_impl sp_result 10); vm_compute; reflexivity|]. split; [exists 30%nat; split; [vm_compute; reflexivity | discriminate]|].
  split; [exists 30%nat; split; [vm_compute; reflexivity | discriminate]|]. intros X. apply compact_cs in X; [|apply bytes_okb_ok; reflexivity]. vm_compute in X. discriminate.
Qed.

Print Assumptions C62_compaction.
