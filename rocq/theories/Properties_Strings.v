(** Properties C01-C05: strings. *)
From Verif Require Import Base Utf8 JsonSpec OptionsModel JsonParse IntModel EscapeModel EscapeProof TypesModel TypesFacts TimeModel FloatModel LeafModel LeafProof
  MemModel FieldsModel FieldsProof InstrModel ExecModel ValueModel ExecProof MarshalThm DocSpec ApiFacts ExampleHost ExampleVals.

(** A string type: its underlying type is string, it is not json.Number, and it
    has no encoding method. *)
Definition string_type (H : host) (t : typ) : Prop := under (h_env H) t = TString /\ DocSpec.plain H t false.

Lemma string_bytes H m t w s : under (h_env H) t = TString -> holds H m t w (VStr s) -> bytes_ok s.
Proof.
  intros Hu Hr. inversion Hr as [|td' w' v' Ht Hi Hd Hnd]; subst.
  assert (Ha : repr H m (LMem w) t (VStr s)) by (apply Hnd; intros D; inversion D; congruence).
  inversion Ha; assumption.
Qed.

Lemma string_marshal H vcall m t w s opts o : host_ok H vcall -> string_type H t -> holds H m t w (VStr s) -> call_opts opts = Some o ->
  marshal_returns H m (Some (t, w)) opts (MOk (encode_string [] s o)).
Proof.
  intros OK [Hu Hp] Hr Ho. apply (marshal_value H vcall OK m t w (VStr s) opts o (encode_string [] s o) None Hr Ho).
  apply encodes_string; try assumption. eapply holds_tok; eauto.
Qed.

(** ** C01
    Marshal of a string gives one JSON text; it is a string literal without
    whitespace; its code units are the string's, with U+FFFD for every byte
    outside a UTF-8 sequence; it has no other reading. *)
Theorem C01_string_roundtrip : forall H vcall m t w s, host_ok H vcall -> string_type H t -> holds H m t w (VStr s) ->
  exists out segs, marshal_returns H m (Some (t, w)) [] (MOk out) /\ segments s segs /\
    cjson (JStr (flat_map (fun u => match u with inl r => utf16 r | inr _ => [U16 0xFFFD] end) segs)) out /\
    (forall v, json_text false v out -> v = JStr (flat_map (fun u => match u with inl r => utf16 r | inr _ => [U16 0xFFFD] end) segs)).
Proof.
  intros H vcall m t w s OK Ht Hr. assert (Hb := string_bytes H m t w s (proj1 Ht) Hr). destruct (segments_total s Hb) as (segs & Hs).
  assert (Hj : cjson (JStr (flat_map coerced_units segs)) (encode_string [] s default_opts)).
  { apply encode_string_json; [exact Hb | split; reflexivity | exists segs; auto]. }
  exists (encode_string [] s default_opts), segs.
  split; [eapply string_marshal; eauto; reflexivity|]. split; [exact Hs|]. split; [exact Hj|].
  intros v Hv. apply (json_text_det false false (encode_string [] s default_opts)); [|exact Hv|exact (cjson_text _ _ Hj)].
  destruct (encode_string_runes s default_opts Hb) as (rs & Hrs & _); [split; reflexivity|]. clear - Hrs.
  induction Hrs as [|r x rs Hr _ IH]; [constructor|]. apply Forall_app. split; [apply utf8_bytes; assumption | exact IH].
Qed.

(** For a valid UTF-8 string the code units are those of its characters. *)
Theorem C01_valid_string : forall H vcall m t w s rs, host_ok H vcall -> string_type H t -> holds H m t w (VStr s) -> utf8_string s rs ->
  exists out, marshal_returns H m (Some (t, w)) [] (MOk out) /\ cjson (JStr (flat_map utf16 rs)) out.
Proof.
  intros H vcall m t w s rs OK Ht Hr Hs. assert (Hb := string_bytes H m t w s (proj1 Ht) Hr).
  exists (encode_string [] s default_opts). split; [eapply string_marshal; eauto; reflexivity|].
  apply encode_string_json; [exact Hb | split; reflexivity | apply string_units_valid; exact Hs].
Qed.

(** UTF-16 loses nothing: the decoded value determines the string. *)
Theorem C01_distinct : forall s1 s2 rs1 rs2, utf8_string s1 rs1 -> utf8_string s2 rs2 -> flat_map utf16 rs1 = flat_map utf16 rs2 -> s1 = s2.
Proof.
  intros s1 s2 rs1 rs2 H1 H2 Hu.
  assert (F : forall s rs, utf8_string s rs -> Forall scalar rs) by (induction 1; constructor; assumption).
  assert (rs1 = rs2) by (apply utf16_inj; eauto). subst rs2. clear Hu.
  revert s2 H2. induction H1 as [|r s rs Hr _ IH]; intros s2 H2; inversion H2; subst; [reflexivity|]. f_equal. apply IH. assumption.
Qed.

(** ** C02 *)
Theorem C02_nothing_raw : forall H vcall m t w s, host_ok H vcall -> string_type H t -> holds H m t w (VStr s) ->
  exists out, marshal_returns H m (Some (t, w)) [] (MOk out) /\
    (forall b, In b out -> 0x20 <= b /\ b <> 60 /\ b <> 62 /\ b <> 38) /\ ~ infix (utf8 0x2028) out /\ ~ infix (utf8 0x2029) out.
Proof.
  intros H vcall m t w s OK Ht Hr. assert (Hb := string_bytes H m t w s (proj1 Ht) Hr).
  exists (encode_string [] s default_opts). split; [eapply string_marshal; eauto; reflexivity|].
  destruct (encode_string_runes s default_opts Hb) as (rs & Hrs & Ho); [split; reflexivity|]. rewrite Forall_forall in Ho. split; [|split].
  - intros b Hi. assert (Hx : 0 <= b).
    { clear - Hrs Hi. induction Hrs as [|r x rs Hr _ IH]; [destruct Hi|]. apply in_app_iff in Hi. destruct Hi as [Hi|Hi]; [|auto].
      apply utf8_bytes in Hr. unfold bytes_ok in Hr. rewrite Forall_forall in Hr. specialize (Hr b Hi). unfold is_byte in Hr. lia. }
    destruct (Z_lt_le_dec b 0x80) as [L|L]; [|lia].
    destruct (in_dec Z.eq_dec b rs) as [Hin|Hin]; [|exfalso; eapply utf8_string_no_byte; eauto].
    specialize (Ho b Hin). cbn in Ho. destruct Ho as (A & _ & _ & C). specialize (C eq_refl). lia.
  - intros Hx. apply (utf8_sync _ _ 0x2028 Hrs) in Hx; [|unfold scalar; lia]. apply Ho in Hx. lia.
  - intros Hx. apply (utf8_sync _ _ 0x2029 Hrs) in Hx; [|unfold scalar; lia]. apply Ho in Hx. lia.
Qed.

Lemma count_app x (a b : bytes) : count_occ Z.eq_dec (a ++ b) x = (count_occ Z.eq_dec a x + count_occ Z.eq_dec b x)%nat.
Proof. induction a as [|y a IH]; [reflexivity|]. cbn. destruct (Z.eq_dec y x); rewrite IH; reflexivity. Qed.

Lemma count_0 x l : Forall (fun b => b <> x) l -> count_occ Z.eq_dec l x = 0%nat.
Proof. intros Hf. apply count_occ_not_In. intros Hi. rewrite Forall_forall in Hf. exact (Hf x Hi eq_refl). Qed.

(** With NoHTMLEscaping the decoded string is the same, and each of the three
    characters occurs raw as often as in the string. *)
Theorem C02_no_html_escaping : forall H vcall m t w s, host_ok H vcall -> string_type H t -> holds H m t w (VStr s) ->
  exists out out' us, marshal_returns H m (Some (t, w)) [] (MOk out) /\ marshal_returns H m (Some (t, w)) [Some ONoHTMLEscaping] (MOk out') /\
    cjson (JStr us) out /\ cjson (JStr us) out' /\
    forall c, c = 60 \/ c = 62 \/ c = 38 -> count_occ Z.eq_dec out' c = count_occ Z.eq_dec s c.
Proof.
  intros H vcall m t w s OK Ht Hr. assert (Hb := string_bytes H m t w s (proj1 Ht) Hr).
  destruct (string_units_total s Hb) as (us & Hu). set (o := apply default_opts [Some ONoHTMLEscaping]).
  assert (Ho : call_opts [Some ONoHTMLEscaping] = Some o) by reflexivity. assert (He : esc_on o) by (split; reflexivity).
  exists (encode_string [] s default_opts), (encode_string [] s o), us.
  split; [eapply string_marshal; eauto; reflexivity|]. split; [eapply string_marshal; eauto|].
  split; [apply encode_string_json; try assumption; split; reflexivity|]. split; [apply encode_string_json; assumption|].
  intros c Hc. rewrite encode_string_body by exact Hb. destruct (segments_total s Hb) as (segs & Hs).
  rewrite (escaped_segments o s segs Hb Hs) by reflexivity. change (34 :: ?x ++ [34]) with ([34] ++ x ++ [34]). rewrite !count_app.
  rewrite !(count_0 c [34]) by (repeat constructor; lia). rewrite Nat.add_0_r. cbn [Nat.add].
  change (has (o_flags o) noUTF8Coercion) with false. change (has (o_flags o) noHTMLEscaping) with true.
  clear - Hs Hb Hc. induction Hs as [|r x us Hr Hs IH|b x us Hn Hs IH]; [reflexivity| |].
  - unfold bytes_ok in Hb. apply Forall_app in Hb. destruct Hb as [Hb1 Hb2]. cbn [flat_map]. rewrite !count_app, (IH Hb2). f_equal. unfold esc_seg.
    destruct (Z.ltb_spec r 0x80) as [L|L].
    + assert (0 <= r) by (unfold scalar in Hr; lia). rewrite (utf8_ascii r) by lia. destruct (EscapeModel.plain true r) eqn:Ep; [reflexivity|].
      assert (Hrc : r <> c). { intros ->. destruct Hc as [-> |[-> | ->]]; discriminate Ep. }
      rewrite (count_0 c [r]) by (repeat constructor; exact Hrc). apply count_0. eapply Forall_impl; [|apply esc_ascii_low; lia]. cbn. lia.
    + destruct ((r =? 0x2028) || (r =? 0x2029)) eqn:Er; [|reflexivity].
      assert (Ho : count_occ Z.eq_dec (utf8 r) c = 0%nat). { apply count_0. eapply Forall_impl; [|apply utf8_high; assumption]. cbn. lia. }
      rewrite Ho. assert (r = 0x2028 \/ r = 0x2029) as [-> | ->] by lia; destruct Hc as [-> |[-> | ->]]; vm_compute; reflexivity.
  - cbn [flat_map]. rewrite count_app. inversion Hb as [|? ? Hbb Hbx]; subst. rewrite (IH Hbx). assert (0x80 <= b) by (eapply no_rune_high; [exact Hn | unfold is_byte in Hbb; lia]).
    cbn [count_occ]. destruct (Z.eq_dec b c) as [Ec|_]; [lia|]. destruct Hc as [-> |[-> | ->]]; vm_compute; reflexivity.
Qed.

(** ** C03 *)
Theorem C03_valid_utf8 : forall H vcall m t w s, host_ok H vcall -> string_type H t -> holds H m t w (VStr s) ->
  exists out, marshal_returns H m (Some (t, w)) [] (MOk out) /\ valid_utf8 out.
Proof.
  intros H vcall m t w s OK Ht Hr. assert (Hb := string_bytes H m t w s (proj1 Ht) Hr).
  exists (encode_string [] s default_opts). split; [eapply string_marshal; eauto; reflexivity|].
  destruct (encode_string_runes s default_opts Hb) as (rs & Hrs & _); [split; reflexivity|]. exists rs. exact Hrs.
Qed.

(** ** C04 *)
Theorem C04_no_string_escaping : forall H vcall m t w s opts o, host_ok H vcall -> string_type H t -> holds H m t w (VStr s) ->
  call_opts opts = Some o -> has (o_flags o) noStringEscaping = true ->
  marshal_returns H m (Some (t, w)) opts (MOk (34 :: s ++ [34])).
Proof.
  intros H vcall m t w s opts o OK Ht Hr Ho Hf. assert (A := string_marshal H vcall m t w s opts o OK Ht Hr Ho).
  assert (Hb := string_bytes H m t w s (proj1 Ht) Hr). rewrite encode_string_body in A by exact Hb. unfold escaped, appendEscapedBytes, appendEscapedBytes_opt in A. rewrite Hf in A. exact A.
Qed.

(** With NoUTF8Coercion the literal denotes the bytes of the string: runes as
    UTF-16, any other byte as itself. *)
Theorem C04_no_utf8_coercion : forall H vcall m t w s opts o, host_ok H vcall -> string_type H t -> holds H m t w (VStr s) ->
  call_opts opts = Some o -> has (o_flags o) noStringEscaping = false -> has (o_flags o) noUTF8Coercion = true ->
  exists out segs, marshal_returns H m (Some (t, w)) opts (MOk out) /\ segments s segs /\
    json no_ws true (JStr (flat_map (fun u => match u with inl r => utf16 r | inr b => [Raw b] end) segs)) out.
Proof.
  intros H vcall m t w s opts o OK Ht Hr Ho Hf Hc. assert (Hb := string_bytes H m t w s (proj1 Ht) Hr). destruct (segments_total s Hb) as (segs & Hs).
  exists (encode_string [] s o), segs. split; [eapply string_marshal; eauto|]. split; [exact Hs|].
  rewrite encode_string_body by exact Hb. constructor. rewrite (escaped_segments o s segs Hb Hs Hf), Hc.
  rewrite (flat_map_ext _ (seg_units true)) by (intros [r|b]; reflexivity). apply (escaped_jchars true _ s segs Hb Hs).
Qed.

(** The units determine the bytes. *)
Lemma utf16_cases r : (r < 0x10000 /\ utf16 r = [U16 r]) \/ (0x10000 <= r /\ utf16 r = [U16 (0xD800 + (r - 0x10000) / 1024); U16 (0xDC00 + (r - 0x10000) mod 1024)]).
Proof. unfold utf16. destruct (Z.ltb_spec r 0x10000); [left | right]; auto. Qed.

Theorem C04_units_determine_bytes : forall s1 s2 g1 g2, segments s1 g1 -> segments s2 g2 ->
  flat_map (fun u => match u with inl r => utf16 r | inr b => [Raw b] end) g1 = flat_map (fun u => match u with inl r => utf16 r | inr b => [Raw b] end) g2 -> s1 = s2.
Proof.
  intros s1 s2 g1 g2 H1. revert s2 g2. induction H1 as [|r1 s1 g1 Hr1 H1 IH|b1 s1 g1 Hn1 H1 IH]; intros s2 g2 H2 Hu.
  - destruct H2 as [|r2 s2 g2 Hr2 H2|b2 s2 g2 Hn2 H2]; [reflexivity| |]; cbn in Hu; try discriminate.
    destruct (utf16_cases r2) as [[_ Ex]|[_ Ex]]; rewrite Ex in Hu; discriminate.
  - destruct H2 as [|r2 s2 g2 Hr2 H2|b2 s2 g2 Hn2 H2]; cbn in Hu.
    + destruct (utf16_cases r1) as [[_ Ex]|[_ Ex]]; rewrite Ex in Hu; discriminate.
    + unfold scalar in Hr1, Hr2. destruct (utf16_cases r1) as [[L1 Ex1]|[L1 Ex1]]; destruct (utf16_cases r2) as [[L2 Ex2]|[L2 Ex2]]; rewrite Ex1, Ex2 in Hu; cbn [app] in Hu.
      * injection Hu as -> Hu. f_equal. eapply IH; eauto.
      * injection Hu as Hx Hu. lia.
      * injection Hu as Hx Hu. lia.
      * injection Hu as Hx Hy Hu. assert (r1 = r2) by lia. subst. f_equal. eapply IH; eauto.
    + destruct (utf16_cases r1) as [[_ Ex]|[_ Ex]]; rewrite Ex in Hu; discriminate.
  - destruct H2 as [|r2 s2 g2 Hr2 H2|b2 s2 g2 Hn2 H2]; cbn in Hu; try discriminate.
    + destruct (utf16_cases r2) as [[_ Ex]|[_ Ex]]; rewrite Ex in Hu; discriminate.
    + injection Hu as -> Hu. f_equal. eapply IH; eauto.
Qed.

(** ** C05
    Stated in full: unless string escaping is disabled, no output for a string
    contains U+2028 or U+2029.  It fails with NoUTF8Coercion. *)
Definition separators_escaped (H : host) : Prop :=
  forall m t w s opts o out, string_type H t -> holds H m t w (VStr s) -> call_opts opts = Some o -> has (o_flags o) noStringEscaping = false ->
    marshal_returns H m (Some (t, w)) opts (MOk out) -> ~ infix (utf8 0x2028) out /\ ~ infix (utf8 0x2029) out.

Theorem C05_separators_refuted : host_ok exH ex_vcall /\ ~ separators_escaped exH.
Proof.
  split; [exact ex_ok|]. intros C. set (s := utf8 0x2028).
  assert (Hb : bytes_ok s) by (apply utf8_bytes; unfold scalar; lia).
  assert (Ht : string_type exH TString) by (split; [reflexivity | split; reflexivity]).
  assert (A := string_marshal exH ex_vcall (bytes_mem s) TString 100 s [Some ONoUTF8Coercion] _ ex_ok Ht (str_holds s Hb) eq_refl).
  destruct (C _ _ _ _ [Some ONoUTF8Coercion] (apply default_opts [Some ONoUTF8Coercion]) _ Ht (str_holds s Hb) eq_refl eq_refl A) as [N _]. apply N. exists [34], [34]. reflexivity.
Qed.

(** What holds: without NoUTF8Coercion as well, whatever the other options. *)
Theorem C05_separators_partial : forall H vcall m t w s opts o out, host_ok H vcall -> string_type H t -> holds H m t w (VStr s) -> call_opts opts = Some o ->
  has (o_flags o) noStringEscaping = false -> has (o_flags o) noUTF8Coercion = false ->
  marshal_returns H m (Some (t, w)) opts (MOk out) -> ~ infix (utf8 0x2028) out /\ ~ infix (utf8 0x2029) out.
Proof.
  intros H vcall m t w s opts o out OK Ht Hr Ho H1 H2 Hm. assert (Hb := string_bytes H m t w s (proj1 Ht) Hr).
  assert (A := string_marshal H vcall m t w s opts o OK Ht Hr Ho). assert (B := marshal_returns_det _ _ _ _ _ _ Hm A). injection B as ->.
  destruct (encode_string_runes s o Hb) as (rs & Hrs & Hf); [split; assumption|]. rewrite Forall_forall in Hf.
  split; intros Hx; apply (utf8_sync _ _ _ Hrs) in Hx; try (unfold scalar; lia); apply Hf in Hx; lia.
Qed.

(** ** Instances: a string with a quote, HTML, a separator, a two-unit
    character, a truncated sequence and a control byte. *)
Definition tricky : bytes := lit "a""<" ++ utf8 0x2028 ++ utf8 0x1F600 ++ [0xE2; 0x80; 1] ++ lit "&\z".

Lemma tricky_ok : bytes_ok tricky.
Proof. unfold tricky, bytes_ok. repeat (apply Forall_cons; [unfold is_byte; cbn; lia|]). constructor. Qed.

Example string_type_ex : string_type exH TString.
Proof. split; [reflexivity | split; reflexivity]. Qed.

Example C01_ex : marshal_returns exH (bytes_mem tricky) (Some (TString, 100)) []
  (MOk (lit """a\""\u003c\u2028" ++ utf8 0x1F600 ++ lit "\ufffd\ufffd\u0001\u0026\\z""")).
Proof. exists 3%nat. split; [vm_compute; reflexivity | discriminate]. Qed.

Example C01_ex_applies : exists out segs, marshal_returns exH (bytes_mem tricky) (Some (TString, 100)) [] (MOk out) /\ segments tricky segs.
Proof.
  destruct (C01_string_roundtrip exH ex_vcall _ TString 100 tricky ex_ok string_type_ex (str_holds _ tricky_ok)) as (out & segs & A & B & _). eauto.
Qed.

Example C04_ex : marshal_returns exH (bytes_mem tricky) (Some (TString, 100)) [Some ONoHTMLEscaping; None; Some ONoUTF8Coercion]
  (MOk (lit """a\""<" ++ utf8 0x2028 ++ utf8 0x1F600 ++ [0xE2; 0x80] ++ lit "\u0001&\\z""")).
Proof. exists 3%nat. split; [vm_compute; reflexivity | discriminate]. Qed.

Example C04_ex_verbatim : marshal_returns exH (bytes_mem tricky) (Some (TString, 100)) [Some ONoUTF8Coercion; Some ONoStringEscaping]
  (MOk (34 :: tricky ++ [34])).
Proof. eapply C04_no_string_escaping; [exact ex_ok | exact string_type_ex | exact (str_holds _ tricky_ok) | reflexivity | reflexivity]. Qed.

Print Assumptions C01_string_roundtrip.
Print Assumptions C02_no_html_escaping.
Print Assumptions C04_no_utf8_coercion.
Print Assumptions C05_separators_refuted.
Print Assumptions C01_distinct.
Print Assumptions C01_valid_string.
Print Assumptions C02_nothing_raw.
Print Assumptions C03_valid_utf8.
Print Assumptions C04_no_string_escaping.
Print Assumptions C04_units_determine_bytes.
Print Assumptions C05_separators_partial.
