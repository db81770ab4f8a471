(** C61: the document with HTML escaping is the document without it, its
    HTML characters escaped. *)
From Coq Require Import Permutation Sorted.
From Verif Require Import Base Utf8 JsonSpec NumberModel NumberProof OptionsModel EscapeModel EscapeProof JsonParse StrictParse CompactModel CompactProof CompactText IntModel IntProof TypesModel TypesFacts TagsModel TagsProof CalendarSpec TimeModel TimeProof
  FloatModel FloatProof LeafModel LeafProof MemModel FieldsModel FieldsProof InstrModel ExecModel ValueModel ExecMono ExecProof HostFacts VencFacts MarshalThm DocSpec EntriesFacts DocLeaf PartFacts DocProof SafeProof ApiFacts
  PartsThm ShapeThm ShuffleThm TextThm CallFacts MethodsThm ExampleHost ExampleConst ExampleRead Properties_Options Properties_Strings Properties_Numbers Properties_Fields Properties_Members Properties_Maps Properties_Api Properties_Marshalers Properties_Safe Properties_Frame FieldsThm FieldsSpec.

(** ** The rewriting *)
Definition html_char (c : Z) : bytes :=
  if c =? 60 then lit "\u003c" else if c =? 62 then lit "\u003e" else if c =? 38 then lit "\u0026" else [c].
Definition html_escaped (s : bytes) : bytes := flat_map html_char s.
Notation hx := html_escaped.

Lemma hx_app a b : hx (a ++ b) = hx a ++ hx b.
Proof. apply flat_map_app. Qed.
Lemma hx_cons c s : hx (c :: s) = html_char c ++ hx s.
Proof. reflexivity. Qed.
Lemma hx_same s : no_html s -> hx s = s.
Proof.
  induction s as [|c s IH]; intros (A & B & C); [reflexivity|]. rewrite hx_cons, IH by (repeat split; intros X; [apply A | apply B | apply C]; right; exact X).
  unfold html_char. replace (c =? 60) with false by (destruct (c =? 60) eqn:Q; [exfalso; apply A; left; lia | reflexivity]).
  replace (c =? 62) with false by (destruct (c =? 62) eqn:Q; [exfalso; apply B; left; lia | reflexivity]).
  replace (c =? 38) with false by (destruct (c =? 38) eqn:Q; [exfalso; apply C; left; lia | reflexivity]). reflexivity.
Qed.
Lemma hx_other c s : c <> 60 -> c <> 62 -> c <> 38 -> hx (c :: s) = c :: hx s.
Proof. intros. rewrite hx_cons. unfold html_char. replace (c =? 60) with false by lia. replace (c =? 62) with false by lia. replace (c =? 38) with false by lia. reflexivity. Qed.
Lemma hx_quote b : hx (34 :: b ++ [34]) = 34 :: hx b ++ [34].
Proof. rewrite hx_other by lia. rewrite hx_app. reflexivity. Qed.
Lemma hx_length s : (length s <= length (hx s))%nat.
Proof.
  induction s as [|c s IH]; [cbn; lia|]. rewrite hx_cons, app_length. assert (1 <= length (html_char c))%nat; [|cbn [length]; lia].
  unfold html_char. destruct (c =? 60); [cbn; lia|]. destruct (c =? 62); [cbn; lia|]. destruct (c =? 38); cbn; lia.
Qed.

(** Strings. *)
Lemma seg_html nc u : (match u with inl r => scalar r | inr b => 0x80 <= b end) -> esc_seg nc false u = hx (esc_seg nc true u).
Proof.
  intros Hu. destruct u as [r|b]; cbn [esc_seg].
  - destruct (r <? 0x80) eqn:L.
    + unfold EscapeModel.plain. cbn [orb]. rewrite andb_true_r.
      destruct ((32 <=? r) && negb (r =? 92) && negb (r =? 34)) eqn:P; cbn [andb].
      * destruct (r =? 60) eqn:Q1; [assert (r = 60) as -> by lia; reflexivity|]. destruct (r =? 62) eqn:Q2; [assert (r = 62) as -> by lia; reflexivity|].
        destruct (r =? 38) eqn:Q3; [assert (r = 38) as -> by lia; reflexivity|]. cbn [negb andb]. symmetry. apply hx_other; lia.
      * symmetry. apply hx_same. assert (Hr : 0 <= r < 0x80) by (unfold scalar in Hu; lia). assert (F := esc_ascii_low r Hr). rewrite Forall_forall in F.
        repeat split; intros X; apply F in X; lia.
    + assert (U : no_html (utf8 r)). { assert (F := utf8_high r Hu ltac:(lia)). rewrite Forall_forall in F. repeat split; intros X; apply F in X; lia. }
      destruct nc; [symmetry; apply hx_same, U|]. destruct ((r =? 0x2028) || (r =? 0x2029)) eqn:Q; [|symmetry; apply hx_same, U].
      assert (r = 0x2028 \/ r = 0x2029) as [-> | ->] by lia; reflexivity.
  - destruct nc; [symmetry; apply hx_other; lia | reflexivity].
Qed.
Lemma segments_good s us : bytes_ok s -> segments s us -> Forall (fun u => match u with inl r => scalar r | inr b => 0x80 <= b end) us.
Proof.
  intros Hb Hs. induction Hs as [|r s us Hr Hs IH|b s us Hn Hs IH]; [constructor | |].
  - constructor; [exact Hr|]. apply IH. apply Forall_app in Hb. apply Hb.
  - apply bytes_ok_cons in Hb. destruct Hb as [B1 B2]. constructor; [|apply IH, B2]. destruct (Z_lt_le_dec b 0x80) as [L|L]; [|exact L]. exfalso. revert Hn. apply no_rune_not_ascii. unfold is_byte in B1. lia.
Qed.
Lemma segs_html nc us : Forall (fun u => match u with inl r => scalar r | inr b => 0x80 <= b end) us -> flat_map (esc_seg nc false) us = hx (flat_map (esc_seg nc true) us).
Proof. induction 1 as [|u us Hu _ IH]; [reflexivity|]. cbn [flat_map]. rewrite hx_app, <- IH, (seg_html nc u Hu). reflexivity. Qed.

(** Compacted texts. *)
Lemma body_html b y : body_text false b y -> bytes_ok b -> body_text true b (hx y).
Proof.
  intros Ht. induction Ht as [|c s y Hc _ IH|s y C|s y C|s y C|s y _ IH|s y _ IH|c s y H1 H2 H3 H4 _ IH]; intros Hb; try discriminate C.
  - constructor.
  - rewrite !bytes_ok_cons in Hb. rewrite hx_other by lia. rewrite hx_other by (cbn [In] in Hc; lia). apply bt_escape; [exact Hc | apply IH, Hb].
  - rewrite !bytes_ok_cons in Hb. rewrite hx_app. apply bt_line, IH, Hb.
  - rewrite !bytes_ok_cons in Hb. rewrite hx_app. apply bt_paragraph, IH, Hb.
  - apply bytes_ok_cons in Hb. destruct Hb as [_ Hb]. specialize (IH Hb). rewrite hx_cons. unfold html_char.
    destruct (c =? 60) eqn:Q1; [assert (c = 60) as -> by lia; apply (bt_less true s); [reflexivity | exact IH]|].
    destruct (c =? 62) eqn:Q2; [assert (c = 62) as -> by lia; apply (bt_greater true s); [reflexivity | exact IH]|].
    destruct (c =? 38) eqn:Q3; [assert (c = 38) as -> by lia; apply (bt_ampersand true s); [reflexivity | exact IH]|].
    cbn [app]. apply bt_other; auto. intros _ X. cbn [In] in X. lia.
Qed.
Lemma compact_html s y : compact_text false s y -> bytes_ok s -> compact_text true s (hx y).
Proof.
  induction 1 as [|c s y Hc _ IH|b b' s y Hb _ IH|c s y H1 H2 _ IH]; intros Ho.
  - constructor.
  - apply ct_space; [exact Hc|]. apply IH. apply bytes_ok_cons in Ho. apply Ho.
  - apply bytes_ok_cons in Ho. destruct Ho as [_ Ho]. apply Forall_app in Ho. destruct Ho as [O1 O2]. inversion O2; subst.
    rewrite hx_other by lia. rewrite hx_app, hx_other by lia. apply ct_string; [apply body_html; assumption | apply IH; assumption].
  - apply bytes_ok_cons in Ho. cbn [In] in H2. rewrite hx_other by lia. apply ct_token; [exact H1 | exact H2 | apply IH, Ho].
Qed.
Lemma cs_html lax j b : json_text lax j b -> bytes_ok b -> cs true false false b = hx (cs false false false b).
Proof.
  intros Hj Hb. apply (compact_text_of true lax j b Hj Hb). apply compact_html; [|exact Hb]. apply (compact_text_of false lax j b Hj Hb). reflexivity.
Qed.

(** Names of members. *)
Lemma name_html s rs : utf8_string s rs -> Forall (fun r => r <> 0x2028 /\ r <> 0x2029) rs -> html_escape s = hx s.
Proof.
  induction 1 as [|r s rs Hs _ IH]; intros F; [reflexivity|]. inversion F as [|? ? (N4 & N5) F']; subst. specialize (IH F').
  destruct (Z_lt_le_dec r 0x80) as [L|L].
  - assert (Q := utf8_ascii r ltac:(unfold scalar in Hs; lia)). rewrite Q. cbn [app]. rewrite html_escape_cons, hx_cons, IH. unfold is_html, html_char.
    destruct (r =? 60) eqn:Q1; [assert (r = 60) as -> by lia; reflexivity|]. destruct (r =? 62) eqn:Q2; [assert (r = 62) as -> by lia; reflexivity|].
    destruct (r =? 38) eqn:Q3; [assert (r = 38) as -> by lia; reflexivity|]. cbn [orb].
    replace (sep3 (r :: s)) with false by (unfold sep3; destruct s as [|x [|y z]]; try reflexivity; lia). reflexivity.
  - assert (U : no_html (utf8 r)). { assert (G := utf8_high r Hs ltac:(lia)). rewrite Forall_forall in G. repeat split; intros X; apply G in X; lia. }
    rewrite hx_app, (hx_same _ U), <- IH.
    destruct (utf8_head r Hs) as (b & t & Q & Hb & Ht). assert (Hnh : is_html b = false) by (pose proof (utf8_high r Hs L) as G; rewrite Q in G; inversion G; subst; unfold is_html; lia).
    destruct (utf8_sep r Hs s) as [Hsep|(b' & E' & _)]; [|exfalso; pose proof (utf8_high r Hs L) as G; rewrite E' in G; inversion G; subst; unfold utf8 in E'; destruct (r <? 0x80) eqn:?; [lia|]; destruct (r <? 0x800); [discriminate|]; destruct (r <? 0x10000); discriminate].
    replace ((r =? 0x2028) || (r =? 0x2029)) with false in Hsep by lia.
    rewrite Q in *. cbn [app] in *. rewrite html_escape_cons, Hnh, Hsep. rewrite html_escape_copy by (eapply Forall_impl; [|exact Ht]; cbn; intros; lia). reflexivity.
Qed.


(** A text ends with null when its escaped form does. *)
Lemma hx_last s : forall c a, c = 110 \/ c = 117 \/ c = 108 -> hx s = a ++ [c] -> exists b, s = b ++ [c] /\ a = hx b.
Proof.
  induction s as [|x s _] using rev_ind; intros c a Hc; [intros Q; destruct a; discriminate|]. rewrite hx_app. intros Q. exists s. cbn [html_escaped flat_map] in Q. rewrite app_nil_r in Q. unfold html_char in Q.
  destruct (x =? 60); [|destruct (x =? 62); [|destruct (x =? 38)]].
  1-3: exfalso; match type of Q with _ ++ lit ?u = _ => let v := eval vm_compute in (lit u) in change (lit u) with v in Q end;
    match type of Q with _ ++ [?p; ?q; ?r; ?u; ?v; ?z] = _ => change [p; q; r; u; v; z] with ([p; q; r; u; v] ++ [z]) in Q end; rewrite app_assoc in Q; apply app_inj_tail in Q; lia.
  apply app_inj_tail in Q. destruct Q as [<- <-]. auto.
Qed.
Lemma tail_null_iff b : tail_null b = true <-> exists a, b = a ++ l_null.
Proof.
  unfold tail_null. split.
  - intros Q. apply andb_true_iff in Q. destruct Q as [L Q]. apply bytes_eqb_eq in Q. exists (firstn (length b - 4) b). rewrite <- Q. symmetry. apply firstn_skipn.
  - intros [a ->]. rewrite app_length. change (length l_null) with 4%nat. replace (length a + 4 - 4)%nat with (length a) by lia. rewrite skipn_app, skipn_all, Nat.sub_diag. cbn [app skipn]. rewrite bytes_eqb_refl.
    replace (4 <=? length a + 4)%nat with true by (symmetry; apply Nat.leb_le; lia). reflexivity.
Qed.
Lemma tail_null_hx b : tail_null (hx b) = tail_null b.
Proof.
  assert (I : tail_null (hx b) = true <-> tail_null b = true); [|destruct (tail_null (hx b)), (tail_null b); intuition congruence].
  rewrite !tail_null_iff. split; intros [a Q]; [|exists (hx a); rewrite Q, hx_app; reflexivity].
  change l_null with ([110] ++ [117] ++ [108] ++ [108]) in Q. rewrite !app_assoc in Q.
  apply hx_last in Q; [|tauto]. destruct Q as (b1 & -> & Q). symmetry in Q. apply hx_last in Q; [|tauto]. destruct Q as (b2 & -> & Q). symmetry in Q.
  apply hx_last in Q; [|tauto]. destruct Q as (b3 & -> & Q). symmetry in Q. apply hx_last in Q; [|tauto]. destruct Q as (b4 & -> & Q). exists b4. rewrite <- !app_assoc. reflexivity.
Qed.

(** ** Results with and without escaping *)
Definition rel (r r' : vres) : Prop :=
  match r, r' with
  | VRet b None, VRet b' None => b = hx b'
  | VRet _ (Some e), VRet _ (Some e') => e = e'
  | VOut, VOut | VFuel, VFuel => True
  | _, _ => False
  end.
Lemma rel_same r : (forall b, r = VRet b None -> no_html b) -> rel r r.
Proof. destruct r as [b [e|]| |]; cbn [rel]; auto. intros G. symmetry. apply hx_same, G. reflexivity. Qed.
Lemma rel_then pre pre' r r' k k' : pre = hx pre' -> rel r r' -> (forall x, rel (k (hx x)) (k' x)) -> rel (vthen pre r k) (vthen pre' r' k').
Proof. intros -> Hr Hk. destruct r as [b [e|]| |], r' as [b' [e'|]| |]; cbn [rel vthen] in *; try contradiction; auto. subst b. rewrite <- hx_app. apply Hk. Qed.
Lemma rel_quote q r r' : rel r r' -> rel (vquote_if q r) (vquote_if q r').
Proof.
  destruct q; [|auto]. intros Hr. destruct r as [b [e|]| |], r' as [b' [e'|]| |]; cbn [rel vquote_if vquote] in *; try contradiction; auto. subst b.
  change ([34] ++ b' ++ [34]) with (34 :: b' ++ [34]). rewrite hx_quote. reflexivity.
Qed.

(** The names of members have no U+2028 and U+2029. *)
Lemma field_runes H vcall (OK : host_ok H vcall) k t fs f : typ_ok (h_letter H) (h_udigit H) t -> structFields H k t = Some fs -> In f fs ->
  exists rs, utf8_string (f_name f) rs /\ Forall (fun r => r <> 0x2028 /\ r <> 0x2029) rs.
Proof.
  intros Ht Hs Hf. destruct (structFields_data H (ok_wf _ _ OK) t Ht k fs f Hs Hf) as (p & sq & w & i & v & opts & A1 & A2 & A3 & _).
  destruct (wf_tables _ (ok_wf _ _ OK)) as (_ & _ & HT).
  destruct A3 as (fs' & d & n & B1 & B2 & _ & _ & [((Hn & rs & Hu & Hr) & -> & _)|(_ & -> & _)]).
  - exists rs. split; [exact Hu|]. eapply Forall_impl; [|exact Hr]. intros r (Hsc & [C|C]).
    + destruct (valid_chars_ascii r C) as (? & ? & ?). lia.
    + destruct (HT r C) as (_ & _ & _ & ? & ? & _). auto.
  - assert (Hw : typ_ok (h_letter H) (h_udigit H) w) by (eapply path_ok; eauto; apply (ok_wf _ _ OK)). assert (Gw := under_ok H (ok_wf _ _ OK) w Hw). unfold struct_of in B1. rewrite B1 in Gw.
    apply typ_ok_struct in Gw. rewrite Forall_forall in Gw. specialize (Gw _ (nth_error_In _ _ B2)). cbn [fst snd] in Gw. destruct Gw as (_ & (Hn & rs & Hu & Hi) & _).
    exists rs. split; [exact Hu|]. eapply Forall_impl; [|exact Hi]. intros r (Hsc & Hr). assert (HT' := HT r). destruct Hr as [->|[C|[C|[C|[C|C]]]]]; try lia;
      [destruct (HT' (or_introl C)) as (_ & _ & _ & ? & ? & _) | destruct (HT' (or_intror C)) as (_ & _ & _ & ? & ? & _)]; auto.
Qed.

Section Html.
  Variable H : host.
  Variable vcall : mkind -> typ -> val -> option Z -> bytes + Z.
  Hypothesis OK : host_ok H vcall.
  Hypothesis SH : shortest_ok (h_shortest H).
  Hypothesis SO : sort_ok H.
  Variables o o' : encOpts.
  Hypothesis On : has (o_flags o) noHTMLEscaping = false.
  Hypothesis Off : has (o_flags o') noHTMLEscaping = true.
  Hypothesis Esc : has (o_flags o) noStringEscaping = false.
  Hypothesis Flags : forall f, In f [unixTime; noNumberValidation; noCompact; unsortedMap; rawByteSlice; byteArrayAsString; nilMapEmpty; nilSliceEmpty; noStringEscaping; noUTF8Coercion] -> has (o_flags o) f = has (o_flags o') f.
  Hypothesis Ctx : o_ctx o = o_ctx o'.
  Hypothesis Lay : o_timeLayout o = o_timeLayout o'.
  Hypothesis Dur : o_durationFmt o = o_durationFmt o'.
  Hypothesis Den : forall s, isDeniedField o s = isDeniedField o' s.
  Variable m : mem.
  Notation E := (h_env H).
  Ltac flags := rewrite Flags by (cbn [In]; tauto).

  (** Texts that reach the document unescaped have no HTML characters, raw
      messages are JSON, and the keys of sorted maps have none and are
      distinct. *)
  Definition escapable (y : node) : Prop :=
    let '(t, ca, q, v) := y in
    (forall s, supplied H vcall o y false s -> no_html s) /\
    (t = TRawMessage -> forall s, supplied H vcall o y true s -> exists lax j, json_text lax j s) /\
    (has (o_flags o) unsortedMap = false ->
      (forall es kt et, v = VMap es -> DocSpec.plain H t ca -> under E t = TMap kt et -> key_ok H kt = true ->
         forall k x kb, In (k, x) es -> key_bytes H vcall o' kt false k kb -> no_html kb) /\
      (forall es, v = VSync es -> t = TSyncMap -> forall kt k x kb, In (VIface kt k, x) es -> key_bytes H vcall o' kt (is_ptr H kt) k kb -> no_html kb) /\
      distinct_keys H vcall o' y).
  Definition all_escapable (x : node) : Prop := forall y, part H o x y -> escapable y.

  Lemma escapable_child x y : all_escapable x -> child H o x y -> all_escapable y.
  Proof. intros Ha Hc z Hz. apply Ha. eapply part_step; eauto. Qed.

  Lemma node_no_html n t ca q v out : held H m (t, ca, q, v) -> all_escapable (t, ca, q, v) -> venc H vcall o n t ca q v = VRet out None -> no_html out.
  Proof.
    intros Hh Ha Hr. eapply (venc_text H vcall o no_html); [..|exact Hr].
    - exact no_html_app.
    - intros s (rs & Hu & Hf). apply (no_html_runes s rs Hu). eapply Forall_impl; [|exact Hf]. unfold safe_rune. cbn. tauto.
    - intros s Hb. apply escaped_no_html; assumption.
    - intros name rs (Hn & Hu & Hk) _. unfold ValueModel.key_text. rewrite On. unfold key_esc. change (34 :: html_escape name ++ [34; 58]) with ([34] ++ html_escape name ++ [34; 58]).
      apply no_html_app; [apply no_html_bytes; repeat constructor; discriminate|]. apply no_html_app; [|apply no_html_bytes; repeat constructor; discriminate].
      apply no_html_clean. eapply key_esc_jchars; eauto.
    - exact OK.
    - exact SH.
    - exact SO.
    - exact Hh.
    - intros y s Hp Ho. apply outside_supplied in Ho. specialize (Ha y Hp). destruct y as [[[t' ca'] q'] v']. destruct Ha as (A1 & _). destruct Ho as [Ho|(b & Ho & ->)]; [apply A1, Ho|]. rewrite On. apply cs_no_html.
  Qed.

  Lemma escaped_html s : bytes_ok s -> escaped o s = hx (escaped o' s).
  Proof.
    intros Hb. destruct (segments_total s Hb) as [us Hs]. assert (Esc' : has (o_flags o') noStringEscaping = false) by (rewrite <- Flags by (cbn [In]; tauto); exact Esc).
    rewrite (escaped_segments o s us Hb Hs Esc), (escaped_segments o' s us Hb Hs Esc'). flags. rewrite On, Off. apply segs_html. eapply segments_good; eauto.
  Qed.
  Lemma string_html s : bytes_ok s -> encode_string [] s o = hx (encode_string [] s o').
  Proof. intros Hb. rewrite !encode_string_body by exact Hb. rewrite hx_quote, escaped_html by exact Hb. reflexivity. Qed.
  Lemma qstring_html s : bytes_ok s -> encode_quoted_string [] s o = hx (encode_quoted_string [] s o').
  Proof.
    intros Hb. unfold encode_quoted_string. rewrite !appendEscapedBytes_app by exact Hb. rewrite escaped_html by exact Hb. rewrite !hx_app. reflexivity.
  Qed.

  Lemma field_html k t fs f : typ_ok (h_letter H) (h_udigit H) t -> structFields H k t = Some fs -> In f fs -> ValueModel.key_text o (f_name f) = hx (ValueModel.key_text o' (f_name f)).
  Proof.
    intros Ht Hs Hf. destruct (field_runes H vcall OK k t fs f Ht Hs Hf) as (rs & U & F).
    unfold ValueModel.key_text. rewrite On, Off. unfold key_raw, key_esc. rewrite hx_other by lia. rewrite hx_app, (name_html _ rs U F). reflexivity.
  Qed.

  Lemma json_html b : bytes_ok b -> (has (o_flags o) noCompact = true -> no_html b) -> (has (o_flags o) noCompact = false -> exists lax j, json_text lax j b) ->
    (if has (o_flags o) noCompact then b else appendCompactJSON [] b true) = hx (if has (o_flags o) noCompact then b else appendCompactJSON [] b false).
  Proof.
    intros Hb A B. destruct (has (o_flags o) noCompact); [symmetry; apply hx_same; auto|]. rewrite !appendCompactJSON_spec by exact Hb. destruct (B eq_refl) as (lax & j & Hj). apply (cs_html lax j b Hj Hb).
  Qed.

  Lemma method_html k t td w : (forall b, vcall k td w (ctx_of o k) = inl b -> (k <> MJson \/ has (o_flags o) noCompact = true) -> no_html b) ->
    rel (vmethod vcall o k t td w) (vmethod vcall o' k t td w).
  Proof.
    intros A. destruct k; cbn [vmethod ctx_of] in *.
    - rewrite <- Ctx. apply rel_same. intros b Hb. destruct (vcall MCtx td w (o_ctx o)) as [s|e] eqn:Ec; [|discriminate]. injection Hb as <-. apply A; [reflexivity | left; discriminate].
    - apply rel_same. intros b Hb. destruct (vcall MApp td w None) as [s|e] eqn:Ec; [|discriminate]. injection Hb as <-. apply A; [reflexivity | left; discriminate].
    - destruct (vcall MJson td w None) as [b|e] eqn:Ec; [|reflexivity]. cbn [encode_json_result]. assert (Hb := ok_bytes _ _ OK _ _ _ _ _ Ec).
      rewrite <- (Flags noCompact) by (cbn [In]; tauto). rewrite On, Off. cbn [negb]. assert (J := json_html b Hb). destruct (has (o_flags o) noCompact) eqn:Nc; cbn [lift rel app].
      + apply J; [intros _; apply A; auto | discriminate].
      + destruct (json_valid b) eqn:V; cbn [negb lift rel]; [|reflexivity]. apply J; [discriminate|]. intros _. apply json_valid_correct in V; [|exact Hb]. destruct V as [j Hj]. eauto.
    - destruct (vcall MText td w None) as [b|e] eqn:Ec; [|reflexivity]. cbn [encode_text_result lift rel app]. rewrite hx_quote. rewrite hx_same; [reflexivity|]. apply A; [reflexivity | left; discriminate].
  Qed.

  Lemma marshaler_html n k t ca q hp v : native t = false -> method_of H t ca = Some (k, hp) -> escapable (t, ca, q, v) ->
    rel (vmarshaler H vcall o n k t hp v) (vmarshaler H vcall o' n k t hp v).
  Proof.
    intros Hn Hm (A & _).
    assert (Go : forall t' td w, receiver H t hp v td w -> rel (vmethod vcall o k t' td w) (vmethod vcall o' k t' td w)).
    { intros t' td w Hrc. apply method_html. intros b Hc Hk. apply A.
      assert (X : exists k0 hp0 td0 w0, method_of H t ca = Some (k0, hp0) /\ receiver H t hp0 v td0 w0 /\ vcall k0 td0 w0 (ctx_of o k0) = inl b /\ false = match k0 with MJson => negb (has (o_flags o) noCompact) | _ => false end).
      { exists k, hp, td, w. split; [exact Hm|]. split; [exact Hrc|]. split; [exact Hc|]. destruct k; try reflexivity. destruct Hk as [Hk|Hk]; [contradiction | rewrite Hk; reflexivity]. }
      destruct t; try discriminate Hn; exact X. }
    unfold vmarshaler. destruct hp; [exact (Go _ _ _ (rc_addr H t v))|].
    destruct (under E t) eqn:Eu;
    try (destruct (is_direct H n t) as [[|]|]; [exact I | | exact I]; refine (Go _ _ _ (rc_val H t v _ _));
         [unfold is_iface; rewrite Eu; reflexivity | unfold is_ptr; rewrite Eu; discriminate]).
    - destruct v; try exact I; [reflexivity|]. exact (Go _ _ _ (rc_dyn H t _ _ _ Eu)).
    - destruct v; try exact I; [reflexivity|].
      refine (Go _ _ _ (rc_val H t _ _ _)); [unfold is_iface; rewrite Eu; reflexivity | discriminate].
  Qed.

  (** ** Maps *)
  Lemma unsorted_html es es' : Forall2 (fun e e' => rel (fst e) (fst e') /\ rel (snd e) (snd e')) es es' ->
    forall first out, rel (vunsorted es first (hx out)) (vunsorted es' first out).
  Proof.
    induction 1 as [|[k v] [k' v'] es es' [K V] _ IH]; intros first out; cbn [vunsorted]; [reflexivity|]. cbn [fst snd] in *.
    apply rel_then; [destruct first; [reflexivity | rewrite hx_app; reflexivity] | exact K|]. intros x. apply rel_then; [rewrite hx_app; reflexivity | exact V|]. intros y. apply IH.
  Qed.

  Definition hkv (x : bytes * bytes) : bytes * bytes := (fst x, hx (snd x)).
  Definition fill_rel (r r' : vfill_res) : Prop :=
    match r, r' with VFOk l, VFOk l' => l = map hkv l' | VFErr e, VFErr e' => e = e' | VFOut, VFOut | VFFuel, VFFuel => True | _, _ => False end.
  Lemma fill_html es es' : Forall2 (fun e e' => rel (fst e) (fst e') /\ rel (snd e) (snd e') /\ forall b, fst e' = VRet b None -> no_html b) es es' ->
    forall acc, fill_rel (vfill es (map hkv acc)) (vfill es' acc).
  Proof.
    induction 1 as [|[k v] [k' v'] es es' (K & V & N) _ IH]; intros acc; cbn [vfill]; [reflexivity|]. cbn [fst snd] in *.
    destruct k as [kb [e|]| |], k' as [kb' [e'|]| |]; cbn [rel] in K; try contradiction; cbn [fill_rel]; auto.
    assert (Q := N kb' eq_refl). rewrite (hx_same _ Q) in K. subst kb. destruct (length kb' <? 2)%nat; [exact I|].
    destruct v as [vb [e|]| |], v' as [vb' [e'|]| |]; cbn [rel] in V; try contradiction; cbn [fill_rel]; auto. subst vb.
    assert (X : map hkv acc ++ [(firstn (length kb' - 2) (skipn 1 kb'), kb' ++ [58] ++ hx vb')] = map hkv (acc ++ [(firstn (length kb' - 2) (skipn 1 kb'), kb' ++ [58] ++ vb')])).
    { rewrite map_app. unfold hkv at 3. cbn [map fst snd]. rewrite !hx_app, (hx_same _ Q). reflexivity. }
    rewrite X. apply IH.
  Qed.
  Lemma join_html l : forall first out, join_kvs (map hkv l) first (hx out) = hx (join_kvs l first out).
  Proof.
    induction l as [|[k kv] l IH]; intros first out; cbn [map join_kvs hkv fst snd]; [reflexivity|]. rewrite <- IH. destruct first; rewrite ?hx_app; reflexivity.
  Qed.
  Lemma sort_html l : NoDup (map fst l) -> h_sort H (map hkv l) = map hkv (h_sort H l).
  Proof.
    intros Nd. destruct (SO l) as [P1 S1]. destruct (SO (map hkv l)) as [P2 S2]. apply sorted_unique.
    - eapply Permutation_trans; [apply Permutation_sym, P2 | apply Permutation_map, P1].
    - assert (X : map fst (map hkv l) = map fst l) by (rewrite map_map; reflexivity). eapply Permutation_NoDup; [apply Permutation_map, P2|]. rewrite X. exact Nd.
    - exact S2.
    - apply StronglySorted_map. exact S1.
  Qed.
  Lemma entries_html es es' : Forall2 (fun e e' => rel (fst e) (fst e') /\ rel (snd e) (snd e')) es es' ->
    (has (o_flags o) unsortedMap = false -> (forall e' b, In e' es' -> fst e' = VRet b None -> no_html b) /\ forall kvs, Forall2 gives es' kvs -> NoDup (map (fun kv => sort_key (fst kv)) kvs)) ->
    rel (ventries H o es) (ventries H o' es').
  Proof.
    intros F S. unfold ventries. rewrite <- (Flags unsortedMap) by (cbn [In]; tauto). apply rel_then; [reflexivity | | intros x; cbn [rel]; rewrite hx_app; reflexivity].
    destruct (has (o_flags o) unsortedMap); [apply (unsorted_html es es' F true [123])|]. destruct (S eq_refl) as [N D]. clear S. unfold vsorted.
    assert (G : fill_rel (vfill es []) (vfill es' [])).
    { refine (fill_html es es' _ []). clear D. induction F as [|e e' es es' [F1 F2] _ IH]; constructor; [|apply IH; intros; eapply N; [right; eassumption | eassumption]].
      split; [exact F1|]. split; [exact F2|]. intros b Hb. eapply N; [left; reflexivity | exact Hb]. }
    destruct (vfill es []) as [l|e| |], (vfill es' []) as [l'|e'| |] eqn:V; cbn [fill_rel] in G; try contradiction; cbn [rel]; auto. subst l.
    apply vfill_ret in V. destruct V as (kvs & Hg & _ & ->). cbn [app]. rewrite sort_html; [|rewrite map_map; apply D, Hg]. apply (join_html _ true [123]).
  Qed.

  Section Step.
    Variable n : nat.
    Notation rec := (venc H vcall o n).
    Notation rec' := (venc H vcall o' n).

    Lemma any_html k t v : rel (rec t (is_ptr H t) false v) (rec' t (is_ptr H t) false v) -> rel (vany H rec k t v) (vany H rec' k t v).
    Proof. intros A. unfold vany. destruct (is_direct H k t); [|exact I]. destruct (isInlined H k t); [|exact I]. destruct (Bool.eqb b b0 || opaque H t); [exact A | exact I]. Qed.

    Lemma elems_html e ca vs : (forall v, In v vs -> rel (rec e ca false v) (rec' e ca false v)) -> forall first out, rel (velems rec e ca vs first (hx out)) (velems rec' e ca vs first out).
    Proof.
      induction vs as [|v vs IH]; intros A first out; cbn [velems]; [destruct first; cbn [rel]; rewrite hx_app; reflexivity|].
      apply rel_then; [rewrite hx_app; destruct first; reflexivity | apply A; left; reflexivity|]. intros x. apply IH. intros w Hw. apply A. right. exact Hw.
    Qed.

    Lemma fields_html t ca v fs :
      Forall (fun f => ValueModel.key_text o (f_name f) = hx (ValueModel.key_text o' (f_name f))) fs ->
      (forall f ft x, In f fs -> shown H o t v f ft x -> rel (rec ft ca (quoted H f ft) x) (rec' ft ca (quoted H f ft) x)) ->
      forall first out, rel (vfields H o rec t ca v fs first (hx out)) (vfields H o' rec' t ca v fs first out).
    Proof.
      induction 1 as [|f fs K _ IH]; intros A first out; cbn [vfields]; [destruct first; cbn [rel]; rewrite hx_app; reflexivity|].
      assert (IH' := IH (fun g gt x Hg => A g gt x (or_intror Hg))). clear IH.
      rewrite <- Den. destruct (isDeniedField o (f_name f)) eqn:Ed; [apply IH'|].
      destruct (negb (right_seq H t f)) eqn:Er; [exact I|]. destruct (vget (f_index f) v) as [[x|]|] eqn:Eg; [|apply IH' | exact I].
      destruct (type_by_index H t (f_index f)) as [ft|] eqn:Et; [|exact I].
      destruct (f_omitNil f && vnil x) eqn:En; [apply IH'|]. destruct (f_omitEmpty f && vempty x) eqn:Ee; [apply IH'|]. cbn zeta.
      assert (X : rel (rec ft ca (quoted H f ft) x) (rec' ft ca (quoted H f ft) x)).
      { apply (A f ft x (or_introl eq_refl)). split; [intros C; apply isDeniedField_spec in C; congruence|]. split; [split; assumption|].
        intros C. unfold dropped in C. destruct C as [[C1 C2]|[C1 C2]]; subst; rewrite C1, ?C2 in *; discriminate. }
      fold (quoted H f ft). destruct (rec ft ca (quoted H f ft) x) as [b [er|]| |], (rec' ft ca (quoted H f ft) x) as [b' [er'|]| |]; cbn [rel] in X; try contradiction; cbn [rel]; auto.
      subst b. rewrite tail_null_hx, K. destruct (f_omitNil f && (h_impl H ft MJson || h_impl H (TPtr ft) MJson) && tail_null b'); destruct first.
      - replace (hx out ++ [123]) with (hx (out ++ [123])) by (rewrite hx_app; reflexivity). apply IH'.
      - apply IH'.
      - match goal with |- rel (vfields _ _ _ _ _ _ _ _ ?a) (vfields _ _ _ _ _ _ _ _ ?b) => replace a with (hx b) by (rewrite !hx_app; reflexivity) end. apply IH'.
      - match goal with |- rel (vfields _ _ _ _ _ _ _ _ ?a) (vfields _ _ _ _ _ _ _ _ ?b) => replace a with (hx b) by (rewrite !hx_app; reflexivity) end. apply IH'.
    Qed.
  End Step.

  Lemma key_html n kt k : (isString E kt = true -> forall s, k = VStr s -> bytes_ok s) ->
    (isString E kt = false -> (h_impl H kt MText && is_ptr H kt && vnil k) = false -> rel (venc H vcall o n kt false false k) (venc H vcall o' n kt false false k)) ->
    rel (vkey H o (venc H vcall o n) kt k) (vkey H o' (venc H vcall o' n) kt k).
  Proof.
    intros A B. unfold vkey. destruct (isString E kt); [destruct k; try exact I; apply string_html, A; reflexivity|].
    destruct (h_impl H kt MText && is_ptr H kt && vnil k); [reflexivity|]. apply rel_quote, B; reflexivity.
  Qed.

  (** The key bytes of an entry. *)
  Lemma key_given n kt k b : vkey H o' (venc H vcall o' n) kt k = VRet b None -> key_bytes H vcall o' kt false k b.
  Proof.
    unfold vkey. intros Hk. destruct (isString E kt) eqn:Es.
    - destruct k; try discriminate. injection Hk as <-. left. split; [exact Es | eauto].
    - destruct (h_impl H kt MText && is_ptr H kt && vnil k) eqn:En.
      + injection Hk as <-. apply andb_true_iff in En. destruct En as [En1 En2]. apply andb_true_iff in En1. destruct k; try discriminate. right. left. intuition.
      + apply vquote_if_none in Hk. destruct Hk as (b' & Hb & ->). right. right. split; [exact Es|]. split; [intros _; exact En|]. exists b'. split; [exists n; exact Hb|]. destruct (h_impl H kt MText); reflexivity.
  Qed.
  Lemma skey_given n k b : vsync_key H o' (venc H vcall o' n) n k = VRet b None -> exists kt k', k = VIface kt k' /\ key_bytes H vcall o' kt (is_ptr H kt) k' b.
  Proof.
    intros Hk. destruct k; try discriminate. exists t, k. split; [reflexivity|]. cbn [vsync_key] in Hk. destruct (isString E t) eqn:Es; cbn [negb andb] in Hk.
    - destruct k; try discriminate. injection Hk as <-. left. split; [exact Es | eauto].
    - destruct (negb (isInteger E t) && negb (h_impl H t MText)); [discriminate|]. apply vquote_if_none in Hk. destruct Hk as (b' & Hb & ->). apply vany_ret in Hb.
      right. right. split; [exact Es|]. split; [intros ->; rewrite andb_false_r; reflexivity|]. exists b'. split; [exists n; exact Hb|]. destruct (h_impl H t MText); reflexivity.
  Qed.

  Lemma Forall2_maps {A B} (f g : A -> B) (R : B -> B -> Prop) l : (forall x, In x l -> R (f x) (g x)) -> Forall2 R (map f l) (map g l).
  Proof. induction l as [|a l IH]; intros G; constructor; [apply G; left; reflexivity | apply IH; intros; apply G; right; assumption]. Qed.

  Lemma node_text_ok y s : held H m y -> text_in H o y s -> bytes_ok s.
  Proof.
    intros Hh Hi. destruct Hi as [t ca q s P U|t ca q e vs b P U B V F|t ca q n e vs b P U B V F|t ca q kt et es s x0 P U S I|ca q es kt s x0 S I]; destruct Hh as [_ [l Hr]].
    - exact (proj2 (proj2 (inv_str _ _ _ _ _ Hr))).
    - eapply vbytes_ok; eauto. eapply byte_elem_under; eauto.
    - eapply vbytes_arr_ok; eauto. eapply byte_elem_under; eauto.
    - destruct (inv_map _ _ _ _ _ Hr) as (k & e & a & addrs & Q1 & Q2 & Q3 & Q4 & Q5 & Q6). destruct (In_nth_error _ _ I) as [j Hj]. destruct (nth_error addrs j) as [[ka va]|] eqn:Ej.
      2:{ apply nth_error_None in Ej. assert (j < length es)%nat by (apply nth_error_Some; congruence). lia. }
      destruct (Q6 _ _ _ _ _ Ej Hj) as [W1 W2]. exact (proj2 (proj2 (inv_str _ _ _ _ _ W1))).
    - destruct (inv_sync H m _ _ _ Hr) as (_ & efs & Q1 & Q2 & Q3). destruct (In_nth_error _ _ I) as [j Hj]. destruct (nth_error efs j) as [[ka va]|] eqn:Ej.
      2:{ apply nth_error_None in Ej. assert (j < length es)%nat by (apply nth_error_Some; congruence). lia. }
      destruct (Q3 _ _ _ _ _ Ej Hj) as [W1 W2]. destruct (any_held H vcall OK m _ _ _ false false W1) as [_ [l' Hl']]. exact (proj2 (proj2 (inv_str _ _ _ _ _ Hl'))).
  Qed.

  Theorem venc_html n : forall t ca q v, held H m (t, ca, q, v) -> all_escapable (t, ca, q, v) -> rel (venc H vcall o n t ca q v) (venc H vcall o' n t ca q v).
  Proof.
    induction n as [|n IH]; intros t ca q v Hh Ha; [exact I|].
    assert (NH : forall out, venc H vcall o (S n) t ca q v = VRet out None -> no_html out) by (intros out; apply node_no_html; assumption).
    assert (C : forall t' ca' q' v', child H o (t, ca, q, v) (t', ca', q', v') -> rel (venc H vcall o n t' ca' q' v') (venc H vcall o' n t' ca' q' v')).
    { intros t' ca' q' v' Hc. apply IH; [eapply child_held; eauto | eapply escapable_child; eauto]. }
    assert (He := Ha _ (part_refl _ _ _)). assert (Tx : forall s, text_in H o (t, ca, q, v) s -> bytes_ok s) by (intros s; apply node_text_ok; exact Hh).
    assert (Sm : venc H vcall o (S n) t ca q v = venc H vcall o' (S n) t ca q v -> rel (venc H vcall o (S n) t ca q v) (venc H vcall o' (S n) t ca q v)).
    { intros Q. rewrite <- Q. apply rel_same, NH. }
    cbn [venc] in *. destruct (native t) eqn:Nt.
    - destruct t; try discriminate Nt; destruct v; try exact I; cbn [vnative] in *.
      + apply Sm. unfold encode_time. flags. rewrite Lay. reflexivity.
      + apply Sm. unfold encode_duration. rewrite Dur. reflexivity.
      + apply Sm. unfold encode_number. flags. reflexivity.
      + reflexivity.
      + destruct (vbytes vs) as [b|] eqn:Eb; [|exact I]. cbn [encode_raw_message]. rewrite On, Off, <- (Flags noCompact) by (cbn [In]; tauto). destruct He as (E1 & E2 & _). cbn [supplied] in E1, E2.
        assert (Hb : bytes_ok b) by (destruct Hh as (_ & l & Hl); eapply (vbytes_ok H m l TRawMessage (TInt KUint8)); eauto).
        assert (J := json_html b Hb). destruct (has (o_flags o) noCompact) eqn:Nc; cbn [lift rel app negb] in *; (apply J; [|]); try discriminate.
        * intros _. apply E1. auto.
        * intros _. apply (E2 eq_refl). auto.
      + apply entries_html.
        * apply Forall2_maps. intros [k x] Hi. cbn [fst snd]. split.
          -- unfold vsync_key. destruct k; try exact I; [reflexivity|]. destruct (isString E t) eqn:Es; cbn [negb andb].
             ++ destruct k; try exact I. apply string_html, Tx. eapply ti_skey; eauto.
             ++ destruct (negb (isInteger E t) && negb (h_impl H t MText)) eqn:Ek; [reflexivity|]. apply rel_quote, any_html, C. eapply ch_skey; [exact Hi | exact Es|].
                destruct (isInteger E t), (h_impl H t MText); try discriminate Ek; reflexivity.
          -- unfold vsync_val. destruct x; try exact I. apply any_html, C. eapply ch_sval. exact Hi.
        * intros Us. destruct He as (_ & _ & He). destruct (He Us) as (_ & K & D). split.
          -- intros e' b Hi Hb. apply in_map_iff in Hi. destruct Hi as ([k x] & <- & Hi). cbn [fst snd] in Hb. apply skey_given in Hb. destruct Hb as (kt & k' & -> & Hb). eapply K; eauto.
          -- intros kvs Hg. apply (proj2 D es eq_refl eq_refl). revert Hg. apply gives_map. intros [k x] kv. apply gives_sync.
    - destruct (method_of H t ca) as [[k hp]|] eqn:Em; [eapply marshaler_html; eauto|].
      assert (P : DocSpec.plain H t ca) by (split; assumption). unfold vkind in *.
      destruct (under E t) as [ |ik|fb| | | | | |ms|e|e|an e|kt et|fs|nn| | | | | ] eqn:Eu; try exact I; try reflexivity; try (apply Sm; reflexivity).
      + destruct v; try exact I. assert (Hb : bytes_ok s) by (apply Tx; constructor; assumption). destruct q; [apply qstring_html | apply string_html]; exact Hb.
      + destruct v; try exact I; [reflexivity|]. destruct ms; [exact I|]. apply any_html, C. constructor; assumption.
      + destruct v; try exact I; [reflexivity|]. apply C. constructor; assumption.
      + destruct v; try exact I.
        * apply Sm. flags. reflexivity.
        * destruct (byte_elem H e) eqn:Be; [|apply (elems_html n e true vs) with (first := true) (out := []); intros v Hv; apply C; eapply ch_slice; eauto].
          destruct (vbytes vs) as [b|] eqn:Vb; [|exact I]. cbn [rel encode_byte_slice app] in *. rewrite <- (Flags rawByteSlice) by (cbn [In]; tauto). destruct (has (o_flags o) rawByteSlice) eqn:Rb.
          -- apply string_html, Tx. eapply ti_slice; eauto.
          -- symmetry. apply hx_same, NH. reflexivity.
      + destruct v; try exact I. rewrite <- (Flags byteArrayAsString) by (cbn [In]; tauto). destruct (byte_elem H e && has (o_flags o) byteArrayAsString) eqn:Be.
        * apply andb_true_iff in Be. destruct Be as [B1 B2]. destruct (vbytes vs) as [b|] eqn:Vb; [|exact I]. apply string_html, Tx. eapply ti_array; eauto.
        * apply (elems_html n e ca vs) with (first := true) (out := []). intros v Hv. apply C. eapply ch_array; eauto.
      + destruct (key_ok H kt) eqn:Ek; cbn [negb] in *; [|reflexivity]. destruct v; try exact I; [apply Sm; flags; reflexivity|]. destruct es as [|e0 es0]; [reflexivity|].
        remember (e0 :: es0) as es eqn:Qe. apply entries_html.
        * apply Forall2_maps. intros [k x] Hi. cbn [fst snd]. split; [|apply C; eapply ch_elem; eauto].
          apply key_html; [intros Es s ->; apply Tx; eapply ti_key; eauto | intros Es En; apply C; eapply ch_key; eauto].
        * intros Us. destruct He as (_ & _ & He). destruct (He Us) as (K & _ & D). split.
          -- intros e' b Hi Hb. apply in_map_iff in Hi. destruct Hi as ([k x] & <- & Hi). cbn [fst snd] in Hb. apply key_given in Hb. eapply K; eauto.
          -- intros kvs Hg. apply (proj1 D es kt et eq_refl P Eu Ek). revert Hg. apply gives_map. intros [k x] kv. apply gives_entry.
      + destruct v; try exact I. unfold vstruct in *. destruct (fields_of H t) eqn:Ef; [reflexivity|].
        destruct (structFields H n t) as [fs'|] eqn:Es; [|exact I]. apply (fields_html n t ca (VStruct vs) fs') with (first := true) (out := []).
        * apply Forall_forall. intros f Hf. eapply field_html; eauto. apply Hh.
        * intros f ft x Hf Hs. apply C. eapply ch_field; eauto.
  Qed.
End Html.

Definition result_escaped (r : mres) : mres := match r with MOk b => MOk (html_escaped b) | r => r end.

(** A call on a value and the same call with NoHTMLEscaping added: the document
    of the first is the document of the second with each <, > and & replaced by
    its escape, and they fail in the same way.  The position of the option in
    the list does not matter. *)
Theorem C61_rewriting H vcall m t w v l1 l2 o : host_ok H vcall -> shortest_ok (h_shortest H) -> sort_ok H -> call H m t w v (l1 ++ l2) o ->
  ~ In (Some ONoHTMLEscaping) (l1 ++ l2) -> ~ In (Some ONoStringEscaping) (l1 ++ l2) ->
  (forall y, part H o (t, is_ptr H t, false, v) y -> escapable H vcall o (config (l1 ++ Some ONoHTMLEscaping :: l2)) y) ->
  forall r, marshal_returns H m (Some (t, w)) (l1 ++ l2) r <->
    exists r', marshal_returns H m (Some (t, w)) (l1 ++ Some ONoHTMLEscaping :: l2) r' /\ r = result_escaped r'.
Proof.
  intros OK SH SO C N1 N2 A. set (o' := config (l1 ++ Some ONoHTMLEscaping :: l2)) in *.
  assert (o = config (l1 ++ l2)) as ->.
  { assert (X := c_opts _ _ _ _ _ _ _ C). rewrite call_opts_config in X. destruct (validate _); [discriminate|]. injection X as <-. reflexivity. }
  set (o := config (l1 ++ l2)) in *.
  assert (Fl : forall y f, y <> ONoHTMLEscaping -> In (y, f) flag_options -> has (o_flags o) f = has (o_flags o') f).
  { intros y f Hy Hi. destruct (flag_added ONoHTMLEscaping l1 l2 y f Hi) as [X|X]; [congruence | exact X]. }
  assert (Ctx : o_ctx o = o_ctx o') by (destruct (ctx_added ONoHTMLEscaping l1 l2) as [[c X]|X]; [discriminate | exact X]).
  assert (Lay : o_timeLayout o = o_timeLayout o') by (destruct (layout_added ONoHTMLEscaping l1 l2) as [[c X]|X]; [discriminate | exact X]).
  assert (Dur : o_durationFmt o = o_durationFmt o') by (destruct (duration_added ONoHTMLEscaping l1 l2) as [[c X]|X]; [discriminate | exact X]).
  assert (Al : o_allow o = o_allow o') by (destruct (allow_added ONoHTMLEscaping l1 l2) as [[c X]|X]; [discriminate | exact X]).
  assert (De : o_deny o = o_deny o') by (destruct (deny_added ONoHTMLEscaping l1 l2) as [[c X]|X]; [discriminate | exact X]).
  assert (Ho : call_opts (l1 ++ Some ONoHTMLEscaping :: l2) = Some o').
  { assert (X := c_opts _ _ _ _ _ _ _ C). rewrite call_opts_config in X |- *. fold o in X. fold o'. unfold validate in *. rewrite <- Ctx, <- Lay, <- Dur.
    destruct (o_ctx o); [|discriminate]. destruct (bytes_eqb (o_timeLayout o) []); [discriminate|]. destruct (negb (dur_valid (o_durationFmt o))); [discriminate | reflexivity]. }
  destruct (call_returns H vcall OK m t w v _ _ C) as (out & err & En & R).
  destruct (encodes_inv _ _ _ _ _ _ _ En) as [n Hn].
  assert (G : rel (venc H vcall o n t (is_ptr H t) false v) (venc H vcall o' n t (is_ptr H t) false v)).
  { apply (venc_html H vcall OK SH SO o o') with (m := m); auto.
    - destruct (has (o_flags o) noHTMLEscaping) eqn:Q; [|reflexivity]. exfalso. apply N1. apply (C16_flags (l1 ++ l2) ONoHTMLEscaping noHTMLEscaping ltac:(cbn; tauto)). exact Q.
    - apply (C16_flags _ ONoHTMLEscaping noHTMLEscaping ltac:(cbn; tauto)). apply in_or_app. right. left. reflexivity.
    - destruct (has (o_flags o) noStringEscaping) eqn:Q; [|reflexivity]. exfalso. apply N2. apply (C16_flags (l1 ++ l2) ONoStringEscaping noStringEscaping ltac:(cbn; tauto)). exact Q.
    - intros f Hf. cbn [In] in Hf. destruct Hf as [<-|[<-|[<-|[<-|[<-|[<-|[<-|[<-|[<-|[<-|[]]]]]]]]]]];
        [apply (Fl OUnixTime) | apply (Fl ONoNumberValidation) | apply (Fl ONoCompact) | apply (Fl OUnsortedMap) | apply (Fl ORawByteSlice) | apply (Fl OByteArrayAsString)
         | apply (Fl ONilMapEmpty) | apply (Fl ONilSliceEmpty) | apply (Fl ONoStringEscaping) | apply (Fl ONoUTF8Coercion)]; try discriminate; cbn; tauto.
    - intros s. unfold isDeniedField. rewrite Al, De. reflexivity.
    - eapply call_held; [exact OK | exact C]. }
  rewrite Hn in G. destruct (venc H vcall o' n t (is_ptr H t) false v) as [out' err'| |] eqn:Hn'; [|destruct err; contradiction | destruct err; contradiction].
  assert (En' : encodes H vcall o' t v out' err') by (eapply (encodes_venc H vcall OK o' t v out' err' n); [eapply holds_tok; apply C | apply C | exact Hn']).
  assert (R' := marshal_iff H vcall OK m t w v (l1 ++ Some ONoHTMLEscaping :: l2) o' out' err'). intros r. rewrite R. split.
  - intros ->. exists (outcome out' err'). split; [apply R'; [apply C | exact Ho | exact En' | reflexivity]|].
    destruct err, err'; cbn [rel] in G; try contradiction; subst; reflexivity.
  - intros (r' & Hr & ->). apply R' in Hr; [|apply C | exact Ho | exact En']. subst r'. destruct err, err'; cbn [rel] in G; try contradiction; subst; reflexivity.
Qed.
(** []interface{}{"a<b", json.RawMessage(`[ "&" ]`), map[string]string{"k": ">"}} *)
Definition hr_raw : val := VSlice (map VInt (lit "[ ""&"" ]")).
Definition hr_map : val := VMap [(VStr (lit "k"), VStr (lit ">"))].
Definition hr_t : typ := TSlice (TIface None).
Definition hr_v : val := VSlice [VIface TString (VStr (lit "a<b")); VIface TRawMessage hr_raw; VIface (TMap TString TString) hr_map].
Lemma hr_parts o y : part (plainH []) o (hr_t, is_ptr (plainH []) hr_t, false, hr_v) y ->
  In y [(hr_t, false, false, hr_v); (TIface None, true, false, VIface TString (VStr (lit "a<b"))); (TString, false, false, VStr (lit "a<b"));
        (TIface None, true, false, VIface TRawMessage hr_raw); (TRawMessage, false, false, hr_raw);
        (TIface None, true, false, VIface (TMap TString TString) hr_map); (TMap TString TString, false, false, hr_map); (TString, false, false, VStr (lit ">"))].
Proof.
  intros Hp. inversion Hp as [|? y1 ? C1 P1]; subst; [left; reflexivity|]. inversion C1; subst; try discriminate.
  match goal with U : under _ _ = TSlice _ |- _ => injection U as <- end. match goal with I : In v _ |- _ => rename I into Hi end.
  inversion P1 as [|? y2 ? C2 P2]; subst; [destruct Hi as [<-|[<-|[<-|[]]]]; cbn [In]; repeat (first [left; reflexivity | right])|].
  destruct Hi as [<-|[<-|[<-|[]]]]; inversion C2; subst; try discriminate; (inversion P2 as [|? y3 ? C3 P3]; subst; [cbn [In]; repeat (first [left; reflexivity | right])|]); inversion C3; subst; try discriminate.
  - exfalso. match goal with P : DocSpec.plain _ TRawMessage _ |- _ => destruct P; discriminate end.
  - match goal with U : under _ _ = TMap _ _ |- _ => injection U as <- <- end. discriminate.
  - match goal with U : under _ _ = TMap _ _ |- _ => injection U as <- <- end. match goal with I : In _ [_] |- _ => destruct I as [[= <- <-]|[]] end.
    inversion P3 as [|? y4 ? C4 P4]; subst; [cbn [In]; repeat (first [left; reflexivity | right])|]. inversion C4; subst; discriminate.
Qed.
Example C61_ex : let m := mem_of (plainH []) hr_t hr_v in let w := word_of (plainH []) hr_t hr_v in
  call (plainH []) m hr_t w hr_v [] default_opts /\
  (forall y, part (plainH []) default_opts (hr_t, is_ptr (plainH []) hr_t, false, hr_v) y -> escapable (plainH []) plainV default_opts (config [Some ONoHTMLEscaping]) y) /\
  marshal_returns (plainH []) m (Some (hr_t, w)) [Some ONoHTMLEscaping] (MOk (lit "[""a<b"",[""&""],{""k"":"">""}]")) /\
  marshal_returns (plainH []) m (Some (hr_t, w)) [] (MOk (lit "[""a\u003cb"",[""\u0026""],{""k"":""\u003e""}]")).
Proof.
  cbn zeta. assert (C : call (plainH []) (mem_of (plainH []) hr_t hr_v) hr_t (word_of (plainH []) hr_t hr_v) hr_v [] default_opts) by (apply (plain_call [] 10); vm_compute; reflexivity).
  assert (A : forall y, part (plainH []) default_opts (hr_t, is_ptr (plainH []) hr_t, false, hr_v) y -> escapable (plainH []) plainV default_opts (config [Some ONoHTMLEscaping]) y).
  { intros y Hy. apply hr_parts in Hy. cbn [In] in Hy.
    destruct Hy as [<-|[<-|[<-|[<-|[<-|[<-|[<-|[<-|[]]]]]]]]]; (split; [|split; [|intros _; split; [|split; [|split]]]]).
    all: try (intros; discriminate).
    all: try (intros s (k & hp & td & w & Q & _); vm_compute in Q; discriminate).
    - intros s (Q & _). discriminate.
    - intros _ s (_ & Q). vm_compute in Q. injection Q as <-. exists true. apply json_valid_correct; [repeat (constructor; [unfold is_byte; lia|]); constructor | vm_compute; reflexivity].
    - intros es kt et [= <-] _ [= <- <-] _ k x kb [[= <- <-]|[]] [(_ & s & [= <-] & ->)|[(Q & _)|(Q & _)]]; try (vm_compute in Q; discriminate).
      apply no_html_bytes. vm_compute. repeat constructor; discriminate.
    - intros es kt et [= <-] _ _ _ kvs F. inversion F as [|? kv ? l _ F']; subst. inversion F'; subst. repeat constructor. intros []. }
  split; [exact C|]. split; [exact A|].
  assert (R : marshal_returns (plainH []) (mem_of (plainH []) hr_t hr_v) (Some (hr_t, word_of (plainH []) hr_t hr_v)) [Some ONoHTMLEscaping] (MOk (lit "[""a<b"",[""&""],{""k"":"">""}]"))).
  { exists 30%nat. split; [vm_compute; reflexivity | discriminate]. }
  split; [exact R|]. apply (C61_rewriting (plainH []) plainV _ _ _ hr_v [] [] default_opts (plainH_ok [] eq_refl) ex_shortest (constH_sort _ _ _) C); [intros [] | intros [] | exact A|].
  eexists. split; [exact R | vm_compute; reflexivity].
Qed.

(** The condition on keys is needed: keys are sorted by their bytes in the
    document, so the members of map[string]int{"<": 1, "=": 2} are written in
    another order with escaping than without. *)
Definition hk_t : typ := TMap TString (TInt KInt).
Definition hk_v : val := VMap [(VStr (lit "<"), VInt 1); (VStr (lit "="), VInt 2)].
Example C61_ex_keys : let m := mem_of (plainH []) hk_t hk_v in let w := word_of (plainH []) hk_t hk_v in
  call (plainH []) m hk_t w hk_v [] default_opts /\
  marshal_returns (plainH []) m (Some (hk_t, w)) [Some ONoHTMLEscaping] (MOk (lit "{""<"":1,""="":2}")) /\
  marshal_returns (plainH []) m (Some (hk_t, w)) [] (MOk (lit "{""="":2,""\u003c"":1}")) /\
  ~ marshal_returns (plainH []) m (Some (hk_t, w)) [] (MOk (html_escaped (lit "{""<"":1,""="":2}"))).
Proof.
  cbn zeta. split; [apply (plain_call [] 10); vm_compute; reflexivity|]. split; [exists 30%nat; split; [vm_compute; reflexivity | discriminate]|].
  assert (R : marshal_returns (plainH []) (mem_of (plainH []) hk_t hk_v) (Some (hk_t, word_of (plainH []) hk_t hk_v)) [] (MOk (lit "{""="":2,""\u003c"":1}"))) by (exists 30%nat; split; [vm_compute; reflexivity | discriminate]).
  split; [exact R|]. intros B. assert (X := marshal_returns_det _ _ _ _ _ _ R B). vm_compute in X. discriminate.
Qed.

Print Assumptions C61_rewriting.
