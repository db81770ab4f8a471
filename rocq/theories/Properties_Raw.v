(** Properties C07, C08: JSON supplied by the user (json.RawMessage and the
    result of MarshalJSON). *)
From Verif Require Import Base Utf8 JsonSpec OptionsModel EscapeProof JsonParse CompactModel CompactProof IntModel TypesModel TypesFacts TimeModel FloatModel LeafModel LeafProof
  MemModel FieldsModel FieldsProof InstrModel ExecModel ValueModel ExecProof VencFacts MarshalThm DocSpec PartFacts SafeProof ApiFacts PartsThm DocLeaf StrictParse ExampleHost ExampleVals ExampleConst.

(** A method of the type of the argument, called through it. *)
Lemma encodes_method H vcall o m t w k v out err : host_ok H vcall -> holds H m t w v -> native t = false -> method_of H t (is_ptr H t) = Some (k, false) ->
  (is_ptr H t = true /\ v <> VNil \/ ~ direct H t) -> vmethod vcall o k t t v = VRet out err -> encodes H vcall o t v out err.
Proof.
  intros OK Hh Hn Hm Hc Hv. assert (Ht := holds_tok H m t w v Hh). assert (Hi : is_iface H t = false) by (inversion Hh; assumption).
  destruct (holds_repr H vcall OK m t w v Hh) as [l Hl]. apply (shape H m) in Hl. destruct (ok_direct _ _ OK t Ht) as (n & d & Hd).
  assert (Dy : dyn_ok H t).
  { right. destruct Hc as [[Hp _]|Hc]; [|tauto]. intros _. unfold is_ptr in Hp. destruct (under (h_env H) t) eqn:Eu; try discriminate. eapply in_ptr; eauto. }
  apply (encodes_venc H vcall OK o t v out err (S n) Ht Dy). cbn [venc]. rewrite Hn, Hm. unfold vmarshaler.
  assert (Nd : is_ptr H t = false -> d = false).
  { intros Hp. destruct d; [|reflexivity]. destruct Hc as [[X _]|Hc]; [congruence|]. destruct Hc. apply (is_direct_spec H n t true Hd). reflexivity. }
  unfold is_ptr, is_iface in *. destruct (under (h_env H) t) eqn:Eu; try discriminate Hi; try (rewrite Hd, Nd by reflexivity; exact Hv).
  destruct Hl as [->|[x ->]]; [|exact Hv]. destruct Hc as [[_ X]|Hc]; [congruence|]. destruct Hc. eapply d_ptr; eauto.
Qed.

(** ** C07: compaction preserves the value *)
(** Valid UTF-8 (lax = false) or with invalid bytes in strings (lax = true). *)
Theorem C07_raw_message : forall H vcall m w vs b lax j opts o, host_ok H vcall -> holds H m TRawMessage w (VSlice vs) -> vbytes vs = Some b -> json_text lax j b ->
  call_opts opts = Some o -> has (o_flags o) noCompact = false ->
  exists out, marshal_returns H m (Some (TRawMessage, w)) opts (MOk out) /\ json no_ws lax j out.
Proof.
  intros H vcall m w vs b lax j opts o OK Hr Hv Hj Ho Hn.
  destruct (holds_repr H vcall OK m _ w _ Hr) as [l Hl]. assert (Hb : bytes_ok b) by (apply (vbytes_ok H m l TRawMessage (TInt KUint8) vs b); auto).
  destruct (cs_text (negb (has (o_flags o) noHTMLEscaping)) lax j b Hj Hb) as (s & E & Hs & _).
  exists s. split; [|exact Hs]. apply (marshal_value H vcall OK m _ w _ opts o s None Hr Ho). apply encodes_native; [exact OK | reflexivity | discriminate | exact I|].
  intros rec n. cbn [vnative]. rewrite Hv. cbn [encode_raw_message]. rewrite Hn, appendCompactJSON_spec by exact Hb. rewrite E. reflexivity.
Qed.

(** Nothing that breaks HTML or JavaScript in the output. *)
Theorem C07_raw_clean : forall H vcall m w vs b opts o out, host_ok H vcall -> holds H m TRawMessage w (VSlice vs) -> vbytes vs = Some b -> valid_json b ->
  call_opts opts = Some o -> has (o_flags o) noCompact = false -> marshal_returns H m (Some (TRawMessage, w)) opts (MOk out) ->
  valid_utf8 out /\ ~ infix (utf8 0x2028) out /\ ~ infix (utf8 0x2029) out /\
  (has (o_flags o) noHTMLEscaping = false -> ~ In 60 out /\ ~ In 62 out /\ ~ In 38 out).
Proof.
  intros H vcall m w vs b opts o out OK Hr Hv [j Hj] Ho Hn Hm.
  destruct (holds_repr H vcall OK m _ w _ Hr) as [l Hl]. assert (Hb : bytes_ok b) by (apply (vbytes_ok H m l TRawMessage (TInt KUint8) vs b); auto).
  destruct (cs_text (negb (has (o_flags o) noHTMLEscaping)) false j b Hj Hb) as (s & E & _ & Hc).
  assert (Eo : out = s).
  { assert (X : encodes H vcall o TRawMessage (VSlice vs) s None).
    { apply encodes_native; [exact OK | reflexivity | discriminate | exact I|].
      intros rec n. cbn [vnative]. rewrite Hv. cbn [encode_raw_message]. rewrite Hn, appendCompactJSON_spec by exact Hb. rewrite E. reflexivity. }
    apply (marshal_iff H vcall OK m _ w _ opts o s None (MOk out) Hr Ho X) in Hm. injection Hm as ->. reflexivity. }
  clear E. subst s. clear Hm. destruct (Hc eq_refl) as (rs & Hu & Hf). rewrite Forall_forall in Hf. split; [exists rs; exact Hu|].
  split; [|split; [|intros Hh]].
  - intros Hx. apply (utf8_sync _ _ _ Hu) in Hx; [|unfold scalar; lia]. apply Hf in Hx. unfold clean_rune in Hx. tauto.
  - intros Hx. apply (utf8_sync _ _ _ Hu) in Hx; [|unfold scalar; lia]. apply Hf in Hx. unfold clean_rune in Hx. tauto.
  - rewrite Hh in Hf. cbn [negb] in Hf. assert (No : forall c, c = 60 \/ c = 62 \/ c = 38 -> ~ In c out).
    { intros c Hc' Hi. apply (utf8_string_no_byte out rs c ltac:(lia) Hu); [|exact Hi]. intros Hx. apply Hf in Hx. unfold clean_rune in Hx. intuition congruence. }
    split; [|split]; apply No; auto.
Qed.

(** The same for the result of a MarshalJSON method. *)
Theorem C07_marshal_json : forall H vcall m t w v b lax j opts o, host_ok H vcall -> holds H m t w v -> native t = false ->
  method_of H t (is_ptr H t) = Some (MJson, false) -> (is_ptr H t = true /\ v <> VNil \/ ~ direct H t) -> vcall MJson t v None = inl b -> json_text lax j b ->
  call_opts opts = Some o -> has (o_flags o) noCompact = false ->
  exists out, marshal_returns H m (Some (t, w)) opts (MOk out) /\ json no_ws lax j out /\
    (lax = false -> valid_utf8 out /\ (has (o_flags o) noHTMLEscaping = false -> ~ In 60 out /\ ~ In 62 out /\ ~ In 38 out)).
Proof.
  intros H vcall m t w v b lax j opts o OK Hr Hna Hm Hd Hc Hj Ho Hn. assert (Hb := ok_bytes _ _ OK _ _ _ _ _ Hc).
  destruct (cs_text (negb (has (o_flags o) noHTMLEscaping)) lax j b Hj Hb) as (s & E & Hs & Hcl).
  exists s. split; [|split; [exact Hs|]].
  - apply (marshal_value H vcall OK m _ w _ opts o s None Hr Ho). eapply encodes_method; eauto. cbn [vmethod]. rewrite Hc. cbn [encode_json_result]. rewrite Hn.
    assert (V : json_valid b = true). { apply json_valid_correct; [exact Hb|]. exists j. destruct lax; [exact Hj | apply json_text_of_lax with false; exact Hj]. }
    rewrite V. cbn [negb]. rewrite appendCompactJSON_spec by exact Hb. rewrite E. reflexivity.
  - intros L. destruct (Hcl L) as (rs & Hu & Hf). rewrite Forall_forall in Hf. split; [exists rs; exact Hu|]. intros Hh. rewrite Hh in Hf. cbn [negb] in Hf.
    assert (No : forall c, c = 60 \/ c = 62 \/ c = 38 -> ~ In c s).
    { intros c Hc' Hi. apply (utf8_string_no_byte s rs c ltac:(lia) Hu); [|exact Hi]. intros Hx. apply Hf in Hx. unfold clean_rune in Hx. intuition congruence. }
    split; [|split]; apply No; auto.
Qed.

(** ** C08: invalid JSON from user code *)
(** The full statement: what user code supplies is valid JSON whenever Marshal
    succeeds. *)
Definition user_json_checked (H : host) (vcall : mkind -> typ -> val -> option Z -> bytes + Z) : Prop :=
  forall m t w v opts o out, holds H m t w v -> call_opts opts = Some o -> has (o_flags o) noCompact = false ->
    dyn_ok H t -> all_readable H o (t, is_ptr H t, false, v) -> marshal_returns H m (Some (t, w)) opts (MOk out) ->
    (forall ca q vs b, part H o (t, is_ptr H t, false, v) (TRawMessage, ca, q, VSlice vs) -> vbytes vs = Some b -> exists j, json_text true j b) /\
    (forall u ca q x hp td y b, part H o (t, is_ptr H t, false, v) (u, ca, q, x) -> native u = false -> method_of H u ca = Some (MJson, hp) ->
       receiver H u hp x td y -> vcall MJson td y None = inl b -> exists j, json_text true j b).

(** json.RawMessage("{") is copied. *)
Theorem C08_user_json_refuted : host_ok exH ex_vcall /\ ~ user_json_checked exH ex_vcall.
Proof.
  split; [exact ex_ok|]. intros C. set (s := [123]).
  assert (Hb : bytes_ok s) by (repeat constructor; unfold is_byte; lia).
  assert (A : marshal_returns exH (bytes_mem s) (Some (TRawMessage, 100)) [] (MOk s)) by (exists 3%nat; split; [vm_compute; reflexivity | discriminate]).
  assert (R : all_readable exH default_opts (TRawMessage, false, false, VSlice (map VInt s))).
  { intros y Hy. inversion Hy as [|? z ? Hc]; subst; [exact I|]. inversion Hc as [? ? ? ? ? P|? ? ? ? ? P|? ? ? ? ? ? P| | | | | |]; subst; destruct P; discriminate. }
  assert (Dy : dyn_ok exH TRawMessage) by (right; not_direct).
  destruct (C _ _ _ _ [] default_opts s (raw_holds s Hb) eq_refl eq_refl Dy R A) as [C1 _].
  destruct (C1 _ _ _ _ (part_refl _ _ _) (vbytes_map s)) as [j Hj].
  assert (V : json_valid s = true) by (apply json_valid_correct; [exact Hb | eauto]). vm_compute in V. discriminate.
Qed.

(** What holds: at any depth of a value that is encoded, the results of
    MarshalJSON methods are valid JSON. *)
Theorem C08_marshal_json_partial : forall H vcall m t w v opts o out u ca q x hp td y b, host_ok H vcall -> holds H m t w v -> call_opts opts = Some o ->
  has (o_flags o) noCompact = false -> dyn_ok H t -> all_readable H o (t, is_ptr H t, false, v) -> marshal_returns H m (Some (t, w)) opts (MOk out) ->
  part H o (t, is_ptr H t, false, v) (u, ca, q, x) -> native u = false -> method_of H u ca = Some (MJson, hp) ->
  receiver H u hp x td y -> vcall MJson td y None = inl b -> exists j, json_text true j b.
Proof.
  intros H vcall m t w v opts o out u ca q x hp td y b OK Hr Ho Hn Hd Ha Hm Hp Hna Hme Hrc Hc. assert (Hb := ok_bytes _ _ OK _ _ _ _ _ Hc).
  apply json_valid_correct; [exact Hb|]. destruct (json_valid b) eqn:Ev; [reflexivity|]. exfalso.
  destruct (readable_returns H vcall OK m t w v opts o Hr Ho Hd Ha) as (out' & err & He & Hm'). assert (X := marshal_returns_det _ _ _ _ _ _ Hm Hm').
  destruct err as [e|]; [discriminate X|]. injection X as <-. destruct (encodes_inv H vcall o t v out None He) as [n Hv].
  assert (G : gives_bytes H vcall o (u, ca, q, x)).
  { apply (part_gives H vcall o OK m (t, is_ptr H t, false, v)); [apply (holds_held H vcall OK m t w v _ _ Hr) | exact Hp | exists n, out; exact Hv]. }
  eapply (raises_none H vcall o OK); [|exact G]. eapply ra_json; eauto. intros j Hj. assert (V : json_valid b = true) by (apply json_valid_correct; [exact Hb | eauto]). congruence.
Qed.

(** ... and an invalid result of the method of the argument gives an error. *)
Theorem C08_invalid_rejected : forall H vcall m t w v b opts o r, host_ok H vcall -> holds H m t w v -> native t = false ->
  method_of H t (is_ptr H t) = Some (MJson, false) -> (is_ptr H t = true /\ v <> VNil \/ ~ direct H t) -> vcall MJson t v None = inl b ->
  (forall j, ~ json_text true j b) -> call_opts opts = Some o -> has (o_flags o) noCompact = false ->
  (marshal_returns H m (Some (t, w)) opts r <-> r = MErr (EMarshaler t MJson ISyntax)).
Proof.
  intros H vcall m t w v b opts o r OK Hr Hna Hm Hd Hc Hj Ho Hn. assert (Hb := ok_bytes _ _ OK _ _ _ _ _ Hc).
  apply (marshal_iff H vcall OK m t w v opts o [] (Some (EMarshaler t MJson ISyntax)) r Hr Ho). eapply encodes_method; eauto. cbn [vmethod]. rewrite Hc. cbn [encode_json_result]. rewrite Hn.
  destruct (json_valid b) eqn:Ev; [|reflexivity]. apply json_valid_correct in Ev; [|exact Hb]. destruct Ev as [j Ej]. destruct (Hj j Ej).
Qed.

(** ** Instances *)
Definition spaced : bytes := lit " { ""a<b"" : [ 1 , -2.50 , ""x\u0041 y"" , { } ] , ""c"" : null } ".
Definition spaced_out : bytes := lit "{""a\u003cb"":[1,-2.50,""x\u0041 y"",{}],""c"":null}".

Lemma spaced_valid : exists j, json_text false j spaced.
Proof.
  destruct (parse_strict spaced) as [j|] eqn:E; [|vm_compute in E; discriminate]. exists j. apply parse_strict_correct; [apply lit_bytes | exact E].
Qed.

Example C07_ex : marshal_returns exH (bytes_mem spaced) (Some (TRawMessage, 100)) [] (MOk spaced_out).
Proof. exists 3%nat. split; [vm_compute; reflexivity | discriminate]. Qed.
Example C07_ex_applies : exists j, json_text false j spaced /\ cjson j spaced_out /\ ~ In 60 spaced_out.
Proof.
  destruct spaced_valid as [j Hj]. exists j.
  destruct (C07_raw_message exH ex_vcall _ _ _ spaced false j [] default_opts ex_ok (raw_holds spaced (lit_bytes _)) (vbytes_map _) Hj eq_refl eq_refl) as (out & A & B).
  assert (X := marshal_returns_det _ _ _ _ _ _ A C07_ex). injection X as ->. split; [exact Hj|]. split; [exact B|].
  destruct (C07_raw_clean exH ex_vcall _ _ _ spaced [] default_opts _ ex_ok (raw_holds spaced (lit_bytes _)) (vbytes_map _) (ex_intro _ j Hj) eq_refl eq_refl C07_ex) as (_ & _ & _ & Y).
  destruct (Y eq_refl) as [Z _]. exact Z.
Qed.

(** type M int with MarshalJSON returning the same text, and B with an invalid
    one. *)
Definition jsonH_impl (t : typ) (k : mkind) : bool := match t, k with TNamed 0, MJson | TNamed 1, MJson => true | _, _ => false end.
Definition jsonH_result (k : mkind) (t : typ) (ctx : option Z) : bytes + Z := match t with TNamed 0 => inl spaced | _ => inl (lit "{""a"":}") end.
Definition jsonH : host := constH [TInt KInt; TInt KInt] jsonH_impl jsonH_result.
Lemma jsonH_ok : host_ok jsonH (constV jsonH_result).
Proof.
  apply constH_ok; [vm_compute; reflexivity|]. intros k td ctx b. unfold jsonH_result. destruct td; try (intros [= <-]; apply lit_bytes). destruct n; intros [= <-]; apply lit_bytes.
Qed.
Lemma jsonH_holds n : (n < 2)%nat -> holds jsonH (cell_mem (CInt KInt 5)) (TNamed n) 100 (VInt 5).
Proof.
  intros Hn. constructor; [exact I | destruct n as [|[|n]]; [reflexivity | reflexivity | lia] | intros D; destruct n as [|[|n]]; [| |lia]; inversion D; discriminate|].
  intros _. apply R_int with KInt; [destruct n as [|[|n]]; [reflexivity | reflexivity | lia] | reflexivity | cbn; lia].
Qed.
Lemma jsonH_not_direct n : (n < 2)%nat -> ~ direct jsonH (TNamed n).
Proof. intros Hn D. destruct n as [|[|n]]; [| |lia]; inversion D; discriminate. Qed.

Example C07_ex_method : marshal_returns jsonH (cell_mem (CInt KInt 5)) (Some (TNamed 0, 100)) [] (MOk spaced_out) /\ exists j, json_text false j spaced /\ cjson j spaced_out.
Proof.
  assert (A : marshal_returns jsonH (cell_mem (CInt KInt 5)) (Some (TNamed 0, 100)) [] (MOk spaced_out)) by (exists 3%nat; split; [vm_compute; reflexivity | discriminate]).
  split; [exact A|]. destruct spaced_valid as [j Hj]. exists j. split; [exact Hj|].
  destruct (C07_marshal_json jsonH (constV jsonH_result) (cell_mem (CInt KInt 5)) (TNamed 0) 100 (VInt 5) spaced false j [] default_opts jsonH_ok (jsonH_holds 0 ltac:(lia)) eq_refl eq_refl (or_intror (jsonH_not_direct 0 ltac:(lia))) eq_refl Hj eq_refl eq_refl) as (out & B & C & _).
  assert (X := marshal_returns_det _ _ _ _ _ _ A B). injection X as <-. exact C.
Qed.
Example C08_ex : marshal_returns jsonH (cell_mem (CInt KInt 5)) (Some (TNamed 1, 100)) [] (MErr (EMarshaler (TNamed 1) MJson ISyntax)).
Proof.
  apply (C08_invalid_rejected jsonH (constV jsonH_result) (cell_mem (CInt KInt 5)) (TNamed 1) 100 (VInt 5) (lit "{""a"":}") [] default_opts _ jsonH_ok (jsonH_holds 1 ltac:(lia)) eq_refl eq_refl (or_intror (jsonH_not_direct 1 ltac:(lia))) eq_refl);
    [|reflexivity|reflexivity|reflexivity].
  intros j Hj. assert (V : json_valid (lit "{""a"":}") = true) by (apply json_valid_correct; [apply lit_bytes | eauto]). vm_compute in V. discriminate.
Qed.
(** The partial theorem applies: the value above is encoded. *)
Example C08_ex_applies : exists j, json_text true j spaced.
Proof.
  apply (C08_marshal_json_partial jsonH (constV jsonH_result) (cell_mem (CInt KInt 5)) (TNamed 0) 100 (VInt 5) [] default_opts spaced_out (TNamed 0) false false (VInt 5) false (TNamed 0) (VInt 5) spaced
    jsonH_ok (jsonH_holds 0 ltac:(lia)) eq_refl eq_refl); try reflexivity.
  - right. intros D. destruct (jsonH_not_direct 0 ltac:(lia) D).
  - intros y Hy. inversion Hy as [|? z ? Hc]; subst; [cbn; apply jsonH_not_direct; lia|].
    inversion Hc as [? ? ? ? ? P|? ? ? ? ? P|? ? ? ? ? ? P| | | | | |]; subst; destruct P; discriminate.
  - exact (proj1 C07_ex_method).
  - constructor.
  - apply rc_val; [reflexivity | discriminate].
Qed.

Print Assumptions C07_raw_message.
Print Assumptions C07_raw_clean.
Print Assumptions C07_marshal_json.
Print Assumptions C08_user_json_refuted.
Print Assumptions C08_marshal_json_partial.
Print Assumptions C08_invalid_rejected.
