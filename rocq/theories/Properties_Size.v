(** C70: how long the encodings of strings, numbers, times, byte slices and the
    results of user methods can be. *)
From Verif Require Import Base Utf8 TagsModel TagsProof JsonSpec OptionsModel EscapeModel EscapeProof JsonParse CompactModel CompactProof CompactText IntModel IntProof Base64Model Base64Proof CalendarSpec TypesModel TypesFacts TimeModel TimeProof FloatModel LeafModel LeafProof
  MemModel FieldsModel FieldsProof InstrModel ExecModel ValueModel ExecProof VencFacts MarshalThm DocSpec PartFacts SafeProof ApiFacts PartsThm DocLeaf EntriesFacts ShapeThm CallFacts BufModel DocProof TextThm ExampleHost ExampleVals ExampleConst ExampleRead
  Properties_Strings Properties_Numbers Properties_Time Properties_Raw Properties_Compact Properties_Bytes Properties_Compose Properties_Fields Properties_Members FloatSpec FloatShort Properties_Floats Properties_FloatText FloatSize SizeFacts.

From Coq Require Import Permutation.

Lemma esc_ascii_length c : (1 <= length (esc_ascii c) <= 6)%nat.
Proof. unfold esc_ascii. repeat match goal with |- context[if ?c then _ else _] => destruct c end; cbn; lia. Qed.

Lemma esc_rune_length nc ne r : (length (utf8 r) <= length (esc_seg nc ne (inl r)) <= 6 * length (utf8 r))%nat.
Proof.
  cbn [esc_seg]. destruct (r <? 0x80) eqn:E.
  - replace (length (utf8 r)) with 1%nat by (unfold utf8; rewrite E; reflexivity). destruct (EscapeModel.plain ne r); [cbn; lia|]. assert (A := esc_ascii_length r). lia.
  - assert (U := utf8_length r). destruct nc; [lia|]. destruct ((r =? 0x2028) || (r =? 0x2029)) eqn:E2; [|lia].
    replace (length (utf8 r)) with 3%nat; [cbn; lia|]. assert (r = 0x2028 \/ r = 0x2029) as [-> | ->] by lia; reflexivity.
Qed.

Lemma escaped_length o s : bytes_ok s -> (length s <= length (escaped o s) <= 6 * length s)%nat.
Proof.
  intros Hb. destruct (has (o_flags o) noStringEscaping) eqn:E.
  - unfold escaped, appendEscapedBytes, appendEscapedBytes_opt. rewrite E. cbn [app]. lia.
  - destruct (segments_total s Hb) as (us & Hs). rewrite (escaped_segments o s us Hb Hs E).
    generalize (has (o_flags o) noUTF8Coercion), (has (o_flags o) noHTMLEscaping). intros nc ne. clear - Hs.
    induction Hs as [|r s us Hr _ IH|b s us Hn _ IH]; [cbn; lia | |].
    + cbn [flat_map]. rewrite !app_length. assert (A := esc_rune_length nc ne r). lia.
    + cbn [flat_map]. rewrite app_length. cbn [length]. assert (1 <= length (esc_seg nc ne (inr b)) <= 6)%nat by (destruct nc; cbn; lia). lia.
Qed.

Lemma encode_string_length o s : bytes_ok s -> (length s + 2 <= length (encode_string [] s o) <= 6 * length s + 2)%nat.
Proof. intros Hb. assert (A := escaped_length o s Hb). rewrite encode_string_body by exact Hb. cbn [length]. rewrite app_length. cbn [length]. lia. Qed.

Lemma quoted_string_length o s : bytes_ok s -> (length (encode_quoted_string [] s o) <= 6 * length s + 2 + 4)%nat.
Proof.
  intros Hb. assert (A := escaped_length o s Hb). unfold encode_quoted_string. rewrite appendEscapedBytes_app by exact Hb. rewrite !app_length. change (length l_qbq) with 3%nat. change (length l_bqq) with 3%nat. cbn [length app]. lia.
Qed.

(** A string of n bytes takes at least n + 2 and at most 6n + 2 bytes, whatever
    the options. *)
Theorem C70_string H vcall m t w s opts o out : host_ok H vcall -> string_type H t -> holds H m t w (VStr s) -> call_opts opts = Some o ->
  marshal_returns H m (Some (t, w)) opts (MOk out) -> (length s + 2 <= length out <= 6 * length s + 2)%nat.
Proof.
  intros OK Ht Hr Ho R. assert (M := string_marshal H vcall m t w s opts o OK Ht Hr Ho). assert (E := marshal_returns_det _ _ _ _ _ _ R M). injection E as ->.
  apply encode_string_length. eapply string_bytes; eauto. apply Ht.
Qed.

(** Both bounds are attained, for every length. *)
Theorem C70_string_attained n :
  marshal_returns exH (bytes_mem (repeat 97 n)) (Some (TString, 100)) [] (MOk (34 :: repeat 97 n ++ [34])) /\
  (exists out, marshal_returns exH (bytes_mem (repeat 1 n)) (Some (TString, 100)) [] (MOk out) /\ length out = (6 * n + 2)%nat).
Proof.
  assert (B : forall c, 0 <= c < 256 -> bytes_ok (repeat c n)) by (intros c Hc; apply Forall_forall; intros x Hx; apply repeat_spec in Hx; subst x; exact Hc).
  assert (G : forall c, 0 <= c < 128 -> segments (repeat c n) (repeat (inl c) n)).
  { intros c Hc. induction n as [|k IH]; [constructor|]. cbn [repeat]. change (c :: repeat c k) with ([c] ++ repeat c k).
    replace [c] with (utf8 c) by (unfold utf8; replace (c <? 0x80) with true by lia; reflexivity). constructor; [unfold scalar; lia|]. apply IH. intros x Hx. apply Forall_forall. intros y Hy. apply repeat_spec in Hy. subst y. exact Hx. }
  assert (St : string_type exH TString) by (split; [reflexivity | split; reflexivity]).
  assert (M : forall c, 0 <= c < 128 -> marshal_returns exH (bytes_mem (repeat c n)) (Some (TString, 100)) [] (MOk (34 :: flat_map (esc_seg false false) (repeat (inl c) n) ++ [34]))).
  { intros c Hc. assert (M := string_marshal exH ex_vcall _ TString 100 (repeat c n) [] default_opts ex_ok St (str_holds _ (B c ltac:(lia))) eq_refl).
    rewrite encode_string_body in M by (apply B; lia). rewrite (escaped_segments default_opts _ _ (B c ltac:(lia)) (G c Hc) eq_refl) in M. exact M. }
  split.
  - assert (M1 := M 97 ltac:(lia)). replace (flat_map (esc_seg false false) (repeat (inl 97) n)) with (repeat 97 n) in M1; [exact M1|]. clear. induction n as [|k IH]; [reflexivity|]. cbn [repeat flat_map]. rewrite <- IH. reflexivity.
  - eexists. split; [exact (M 1 ltac:(lia))|]. cbn [length]. rewrite app_length. cbn [length].
    replace (length (flat_map (esc_seg false false) (repeat (inl 1) n))) with (6 * n)%nat; [lia|]. clear. induction n as [|k IH]; [reflexivity|]. cbn [repeat flat_map]. rewrite app_length, <- IH. cbn. lia.
Qed.

(** ** Integers *)
Lemma jint_length ds k : jint ds -> (1 <= k)%nat -> dval ds < 10 ^ Z.of_nat k -> (length ds <= k)%nat.
Proof.
  intros [|d l Hd Hl] Hk Hv; [cbn; lia|]. rewrite dval_cons in Hv. assert (B := dval_bound l Hl). cbn [length].
  destruct (Nat.le_gt_cases (S (length l)) k) as [|X]; [assumption|]. exfalso. assert (P : 10 ^ Z.of_nat k <= 10 ^ Z.of_nat (length l)) by (apply Z.pow_le_mono_r; lia). nia.
Qed.

(** An integer takes at most as many bytes as the longest of its kind. *)
Definition int_width (k : ikind) : nat :=
  match k with KInt8 => 4 | KInt16 => 6 | KInt32 => 11 | KInt | KInt64 => 20 | KUint8 => 3 | KUint16 => 5 | KUint32 => 10 | KUint | KUint64 | KUintptr => 20 end.
Theorem C70_integer H vcall m t w k n opts o out : host_ok H vcall -> under (h_env H) t = TInt k -> DocSpec.plain H t false -> holds H m t w (VInt n) -> call_opts opts = Some o ->
  marshal_returns H m (Some (t, w)) opts (MOk out) -> (1 <= length out <= int_width k)%nat.
Proof.
  intros OK U P Hr Ho R. destruct (C09_integer H vcall m t w k n opts o OK U P Hr Ho) as (out' & R' & L & _). assert (E := marshal_returns_det _ _ _ _ _ _ R R'). injection E as <-.
  assert (Hk : int_range k n).
  { destruct (holds_repr H vcall OK m t w (VInt n) Hr) as [l Hl]. destruct (inv_int _ _ _ _ _ Hl) as (k' & U' & _ & X). rewrite U in U'. injection U' as <-. exact X. }
  split; [inversion L as [|ds J|ds J]; subst; try (cbn; lia); inversion J; cbn; lia|].
  inversion L as [|ds J N E1 E2|ds J N E1 E2]; subst; [destruct k; cbn; lia | |].
  - apply jint_length; [exact J | destruct k; cbn; lia|]. destruct k; unfold int_range in Hk; cbn in Hk |- *; lia.
  - assert (X := jint_pos_val ds J N). cbn [length]. assert (Y : signed k = true) by (destruct k; unfold int_range in Hk; cbn in Hk |- *; try reflexivity; lia).
    assert ((length ds <= int_width k - 1)%nat); [|destruct k; cbn in *; lia]. apply jint_length; [exact J | destruct k; cbn; lia|]. destruct k; try discriminate Y; unfold int_range in Hk; cbn in Hk |- *; lia.
Qed.

(** ** Times *)
(** An RFC 3339 time takes 22 to 37 bytes, and without a fraction 22 or 27. *)
Theorem C70_time H vcall m w g opts o nano y out : host_ok H vcall -> holds H m TTime w (VTime g) -> call_opts opts = Some o ->
  rfc3339_layout o nano -> local_year g y -> 1 <= y <= 9999 -> Z.abs (t_offset g) < 360000 -> marshal_returns H m (Some (TTime, w)) opts (MOk out) ->
  (22 <= length out <= 37)%nat /\ (nano = false \/ t_nsec g = 0 -> length out = 22%nat \/ length out = 27%nat).
Proof.
  intros OK Hr Ho Hl Hy Hb Hz R. destruct (proj1 (C11_rfc3339 H vcall m w g opts o nano y _ OK Hr Ho Hl Hy Hb Hz) R) as (out' & E & X). injection E as <-.
  destruct X as (s & y0 & mo & d & hh & mi & ss & -> & (a1 & a2 & a3 & a4 & a5 & a6 & a7 & a8 & A1 & A2 & A3 & A4 & A5 & A6 & A7 & A8 & ->) & _).
  destruct A1 as [A1 _], A2 as [A2 _], A3 as [A3 _], A4 as [A4 _], A5 as [A5 _], A6 as [A6 _].
  assert (L8 : length a8 = 1%nat \/ length a8 = 6%nat) by (destruct A8 as [|? ? ? ? [B1 _] [B2 _]|? ? ? ? [B1 _] [B2 _]]; [left; reflexivity | right | right]; cbn [length]; rewrite app_length; cbn [length]; lia).
  assert (L7 : (length a7 <= 10)%nat /\ (nano = false \/ t_nsec g = 0 -> a7 = [])).
  { inversion A7 as [E1 E2|fs c F1 F2 F3 E1 E2]; subst; [split; [cbn; lia | reflexivity]|]. split; [cbn [length]; lia|]. intros Z. exfalso.
    assert (V : 0 < dval (fs ++ [c])).
    { clear - F1 F2. induction fs as [|x fs IH]; cbn [app] in *; inversion F1 as [|? ? D1 D2]; subst; rewrite dval_cons; unfold digit in D1.
      - cbn. lia. - specialize (IH D2). assert (0 <= (x - 48) * 10 ^ Z.of_nat (length (fs ++ [c]))) by (apply Z.mul_nonneg_nonneg; [lia | apply Z.pow_nonneg; lia]). lia. }
    assert (P : 0 < 10 ^ Z.of_nat (9 - length (fs ++ [c]))) by (apply Z.pow_pos_nonneg; lia). destruct nano; [destruct Z as [Z|Z]; [discriminate|]; rewrite Z in E2|]; nia. }
  destruct L7 as [L7 L7']. cbn [length]. rewrite !app_length. cbn [length]. rewrite !app_length. cbn [length]. rewrite !app_length. cbn [length]. rewrite !app_length. cbn [length]. rewrite !app_length. cbn [length]. rewrite !app_length. cbn [length]. rewrite ?app_length.
  split; [lia|]. intros Z. rewrite (L7' Z). cbn [length]. lia.
Qed.

(** ** Byte slices *)
Lemma vbytes_length vs : forall b, vbytes vs = Some b -> length b = length vs.
Proof. induction vs as [|v vs IH]; intros b; cbn [vbytes]; [intros [= <-]; reflexivity|]. destruct v; try discriminate. destruct (vbytes vs) as [bs|]; [|discriminate]. intros [= <-]. cbn [length]. rewrite (IH bs eq_refl). reflexivity. Qed.

Lemma byte_slice_length b o : bytes_ok b -> has (o_flags o) rawByteSlice = false -> length (encode_byte_slice (Some b) [] o) = (4 * ((length b + 2) / 3) + 2)%nat.
Proof.
  intros Hb F. unfold encode_byte_slice. rewrite F. assert (L := base64_text_length _ _ (base64_correct b Hb)). unfold b64_len in L. rewrite Z.quot_div_nonneg in L by lia.
  cbn [app length]. rewrite app_length. cbn [length]. zify. lia.
Qed.

(** Base64: four characters for every three bytes begun. *)
Theorem C70_bytes H vcall m t w e vs opts o out : host_ok H vcall -> call H m t w (VSlice vs) opts o -> DocSpec.plain H t false -> under (h_env H) t = TSlice e -> byte_elem H e = true ->
  has (o_flags o) rawByteSlice = false -> marshal_returns H m (Some (t, w)) opts (MOk out) -> length out = (4 * ((length vs + 2) / 3) + 2)%nat.
Proof.
  intros OK C [P1 P2] U B F R. destruct (call_held H vcall OK m t w _ opts o C) as (_ & l & Hl). apply (call_bytes H vcall OK m t w _ opts o C) in R. destruct R as [n Hn].
  assert (Ip : is_ptr H t = false) by (unfold is_ptr; rewrite U; reflexivity). rewrite Ip in Hn.
  destruct n as [|n]; [discriminate|]. cbn [venc] in Hn. rewrite P1, P2 in Hn. unfold vkind in Hn. rewrite U, B in Hn. destruct (vbytes vs) as [b|] eqn:Eb; [|discriminate]. injection Hn as <-.
  rewrite <- (vbytes_length _ _ Eb). apply byte_slice_length; [|exact F]. eapply (vbytes_ok H); eauto. apply byte_elem_under. exact B.
Qed.

(** ** User methods and raw messages *)
Lemma body_text_length html s y : body_text html s y -> (length s <= length y <= 6 * length s)%nat.
Proof. induction 1; cbn [length app] in *; rewrite ?app_length; cbn; try lia. Qed.

Lemma compact_text_length html s y : compact_text html s y -> (length y <= 6 * length s)%nat.
Proof. induction 1 as [|c s y _ _ IH|b b' s y B _ IH|c s y _ _ _ IH]; cbn [length]; rewrite ?app_length; cbn [length]; try lia. assert (X := body_text_length _ _ _ B). lia. Qed.

Lemma cs_length esc : forall n inS skip s, (length s <= n)%nat -> (length (cs esc inS skip s) <= 6 * length s)%nat.
Proof.
  induction n as [|n IH]; intros inS skip s Hn; [destruct s; cbn in *; lia|]. destruct s as [|c s]; [cbn; lia|]. cbn [length] in Hn.
  assert (G : forall i k, (length (cs esc i k s) <= 6 * length s)%nat) by (intros; apply IH; lia).
  cbn [cs length]. destruct (esc && is_html c).
  - rewrite app_length. specialize (G inS skip). unfold html_esc. cbn [length app]. rewrite ?app_length. cbn. lia.
  - set (next := if negb inS then _ else _). assert (N : (length next <= 6 * S (length s))%nat).
    { unfold next. repeat match goal with |- context[if ?x then _ else _] => destruct x end; cbn [length]; rewrite ?Nat.mul_succ_r; match goal with |- context[cs esc ?i ?k s] => specialize (G i k) end; lia. }
    clearbody next. destruct s as [|b1 [|b2 s3]]; try exact N. destruct (_ && _); [|exact N].
    rewrite app_length. cbn [length]. assert (X := IH inS (if inS then false else skip) s3 ltac:(cbn [length] in Hn; lia)). unfold sep_esc. rewrite ?app_length. cbn. lia.
Qed.

(** What a raw message holds, JSON or not, and what MarshalJSON gives becomes at
    most six times as long. *)
Theorem C70_raw_message H vcall m w vs b opts o out : host_ok H vcall -> holds H m TRawMessage w (VSlice vs) -> vbytes vs = Some b -> call_opts opts = Some o ->
  marshal_returns H m (Some (TRawMessage, w)) opts (MOk out) -> (length out <= 6 * length b)%nat.
Proof.
  intros OK Hr Hv Ho R. destruct (has (o_flags o) noCompact) eqn:E.
  - apply (C59_copied H vcall m w vs b opts o _ OK Hr Hv Ho E) in R. injection R as ->. lia.
  - destruct (holds_repr H vcall OK m _ w _ Hr) as [l Hl]. assert (Hb : bytes_ok b) by (apply (vbytes_ok H m l TRawMessage (TInt KUint8) vs b); auto).
    assert (En : encodes H vcall o TRawMessage (VSlice vs) (cs (negb (has (o_flags o) noHTMLEscaping)) false false b) None).
    { apply encodes_native; [exact OK | reflexivity | discriminate | exact I|]. intros rec n. cbn [vnative]. rewrite Hv. cbn [encode_raw_message]. rewrite E, appendCompactJSON_spec by exact Hb. reflexivity. }
    apply (marshal_iff H vcall OK m _ w _ opts o _ None _ Hr Ho En) in R. injection R as ->. eapply cs_length. reflexivity.
Qed.

Theorem C70_marshal_json H vcall m t w v b opts o out : host_ok H vcall -> holds H m t w v -> native t = false ->
  method_of H t (is_ptr H t) = Some (MJson, false) -> (is_ptr H t = true /\ v <> VNil \/ ~ direct H t) -> vcall MJson t v None = inl b -> call_opts opts = Some o ->
  marshal_returns H m (Some (t, w)) opts (MOk out) -> (length out <= 6 * length b)%nat.
Proof.
  intros OK Hr Hna Hm Hd Hc Ho R. assert (Hb := ok_bytes _ _ OK _ _ _ _ _ Hc).
  assert (En : encodes H vcall o t v (if has (o_flags o) noCompact then b else if json_valid b then cs (negb (has (o_flags o) noHTMLEscaping)) false false b else [])
    (if has (o_flags o) noCompact then None else if json_valid b then None else Some (EMarshaler t MJson ISyntax))).
  { eapply encodes_method; eauto. cbn [vmethod]. rewrite Hc. cbn [encode_json_result]. destruct (has (o_flags o) noCompact); [reflexivity|]. destruct (json_valid b); cbn [negb]; [|reflexivity].
    rewrite appendCompactJSON_spec by exact Hb. reflexivity. }
  apply (marshal_iff H vcall OK m _ w _ opts o _ _ _ Hr Ho En) in R. destruct (has (o_flags o) noCompact); [injection R as ->; lia|].
  destruct (json_valid b); [|discriminate R]. injection R as ->. eapply cs_length. reflexivity.
Qed.

(** What MarshalText gives is put in quotation marks. *)
Theorem C70_marshal_text H vcall m t w v b opts o out : host_ok H vcall -> holds H m t w v -> native t = false ->
  method_of H t (is_ptr H t) = Some (MText, false) -> (is_ptr H t = true /\ v <> VNil \/ ~ direct H t) -> vcall MText t v None = inl b -> call_opts opts = Some o ->
  marshal_returns H m (Some (t, w)) opts (MOk out) -> length out = (length b + 2)%nat.
Proof.
  intros OK Hr Hna Hm Hd Hc Ho R.
  assert (En : encodes H vcall o t v (34 :: b ++ [34]) None).
  { eapply encodes_method; eauto. cbn [vmethod]. rewrite Hc. reflexivity. }
  apply (marshal_iff H vcall OK m _ w _ opts o _ None _ Hr Ho En) in R. injection R as ->. cbn [length]. rewrite app_length. cbn. lia.
Qed.

(** A float takes at most 24 bytes and its sign. *)
Theorem C70_float H vcall m t w b f opts o out : host_ok H vcall -> shortest_exact (h_shortest H) -> under (h_env H) t = TFloat b -> DocSpec.plain H t false ->
  holds H m t w (VFloat f) -> finite_float b f -> call_opts opts = Some o ->
  marshal_returns H m (Some (t, w)) opts (MOk out) -> (1 <= length out <= 25)%nat.
Proof.
  intros OK SE U P Hr F Ho R. apply (C10_text H vcall m t w b f opts o out OK (proj1 SE) U P Hr Ho) in R. assert (L := spelled_length (h_shortest H) b f out SE ltac:(intros neg mm e ->; exact F) R). split.
  - destruct R as [| |? ? ? ? ? Es _ Hx|? ? ? ? ? Es _ Hx|? ? ? _]; try (cbn; lia).
    + destruct (proj1 SE _ _ _ _ _ Es) as (_ & (d & tl & -> & _) & _). inversion Hx; subst; rewrite ?app_length; try change (length (lit ".")) with 1%nat; try change (length (lit "0.")) with 2%nat; cbn [length]; lia.
    + inversion Hx; subst; cbn [length]; lia.
  - match type of L with context[if ?c then _ else _] => destruct c; lia end.
Qed.

(** ** Whole documents *)
(** A bound for a value whose types have no methods, raw messages, numbers,
    times, durations and sync.Map included.  K: what the names of the members of
    one struct may take. *)
Fixpoint weight (K : nat) (v : val) : nat :=
  match v with
  | VBool _ => 5
  | VInt _ => 20
  | VFloat _ => 25
  | VStr s => 6 * length s + 2
  | VNil => 4
  | VPtr v' | VIface _ v' => weight K v'
  | VSlice vs | VArr vs => list_sum (map (fun v => weight K v + 1) vs) + 2
  | VMap es => list_sum (map (fun e => weight K (fst e) + weight K (snd e) + 4) es) + 2
  | VStruct vs => list_sum (map (weight K) vs) + K + 2
  | VTime _ => 37
  | VSync es => list_sum (map (fun e => weight K (fst e) + weight K (snd e) + 4) es) + 2
  | VOpaque => 0
  end%nat.

(** A key of an object: at most six bytes for each of the name, the quotation
    marks and the colon. *)
Lemma html_escape_length : forall n s, (length s <= n)%nat -> (length (html_escape s) <= 6 * length s)%nat.
Proof.
  induction n as [|n IH]; intros s L; [destruct s; [cbn; lia | cbn in L; lia]|]. destruct s as [|c s]; [cbn; lia|]. rewrite html_escape_cons.
  destruct (is_html c); [rewrite app_length; cbn [length] in *; specialize (IH s ltac:(lia)); change (length (html_esc c)) with 6%nat; lia|].
  destruct (sep3 (c :: s)) eqn:S3; [|cbn [length] in *; specialize (IH s ltac:(lia)); lia].
  rewrite app_length. assert (L3 : (3 <= length (c :: s))%nat) by (destruct s as [|c2 [|c3 s]]; cbn in S3 |- *; try discriminate; lia || (rewrite ?andb_false_r in S3; discriminate)).
  assert (Ls := skipn_length 3 (c :: s)). specialize (IH (skipn 3 (c :: s)) ltac:(cbn [length] in *; lia)). change (length (sep_esc (nth 2 (c :: s) 0))) with 6%nat. lia.
Qed.
Lemma key_text_length o name : (length (ValueModel.key_text o name) <= 6 * length name + 3)%nat.
Proof.
  unfold ValueModel.key_text. destruct (has (o_flags o) noHTMLEscaping); unfold key_raw, key_esc; cbn [length]; rewrite app_length; cbn [length]; [lia|]. assert (X := html_escape_length _ name (Nat.le_refl _)). lia.
Qed.

Section Tree.
  Variables (H : host) (vcall : mkind -> typ -> val -> option Z -> bytes + Z).
  Hypothesis (OK : host_ok H vcall) (SO : sort_ok H).
  Variables (m : mem) (o : encOpts) (K0 : nat).
  Notation E := (h_env H).
  Notation weight := (weight K0).

  (** What the names of the members, the separators and the quotation marks of
      the string option take. *)
  Definition name_cost (f : field) : nat := (6 * length (f_name f) + 8)%nat.
  Definition tree_node (x : node) : Prop :=
    let '(t, ca, q, v) := x in
    if native t then
      match t with
      | TTime => has (o_flags o) unixTime = true \/ o_timeLayout o = layout_RFC3339 \/ o_timeLayout o = layout_RFC3339Nano
      | TDuration => o_durationFmt o <> DurationString /\ o_durationFmt o <> DurationMinutes /\ o_durationFmt o <> DurationSeconds
      | _ => True
      end
    else DocSpec.plain H t ca /\
    match under E t with
    | TBool | TInt _ | TString | TPtr _ | TIface _ | TSlice _ | TArray _ _ => True
    | TFloat b => shortest_exact (h_shortest H) /\ forall neg mm e, v = VFloat (FFin neg mm e) -> float_of b (Zpos mm, e)
    | TMap kt _ => h_impl H kt MText = false
    | TStruct _ => forall k fs, structFields H k t = Some fs -> (sum_of name_cost fs <= K0)%nat
    | _ => False
    end.
  Definition quotes (q : bool) : nat := if q then 4%nat else 0%nat.

  Lemma vquote_if_length q b out k : vquote_if q (VRet b None) = VRet out None -> (length b <= k)%nat -> (length out <= k + quotes q)%nat.
  Proof.
    destruct q; cbn; intros Hr L.
    - injection Hr as <-. cbn [length]. rewrite app_length. cbn [length]. lia.
    - injection Hr as <-. lia.
  Qed.

  Lemma fields_length n t ca v fs : (forall f ft x b, In f fs -> shown H o t v f ft x -> venc H vcall o n ft ca (quoted H f ft) x = VRet b None -> (length b <= weight x + 4)%nat) ->
    forall first out0 out, vfields H o (venc H vcall o n) t ca v fs first out0 = VRet out None ->
    (length out <= length out0 + sum_of (fun f => at_path weight v (f_index f)) fs + sum_of name_cost fs + (if first then 2 else 1))%nat.
  Proof.
    induction fs as [|f fs IH]; intros G first out0 out Hr; cbn [vfields] in Hr.
    - assert (out = if first then out0 ++ [123; 125] else out0 ++ [125]) as -> by congruence. destruct first; rewrite app_length; cbn; lia.
    - assert (G' : forall f0 ft x b, In f0 fs -> shown H o t v f0 ft x -> venc H vcall o n ft ca (quoted H f0 ft) x = VRet b None -> (length b <= weight x + 4)%nat) by (intros; eapply G; eauto; right; assumption).
      specialize (IH G'). rewrite !sum_cons. unfold name_cost at 1.
      destruct (isDeniedField o (f_name f)) eqn:Dn; [apply IH in Hr; lia|]. destruct (right_seq H t f); cbn [negb] in Hr; [|discriminate].
      unfold at_path at 1. destruct (vget (f_index f) v) as [[x|]|] eqn:Eg; [| apply IH in Hr; lia | discriminate].
      destruct (type_by_index H t (f_index f)) as [ft|] eqn:Et; [|discriminate].
      destruct (f_omitNil f && vnil x) eqn:O1; [apply IH in Hr; lia|]. destruct (f_omitEmpty f && vempty x) eqn:O2; [apply IH in Hr; lia|].
      match type of Hr with context[venc H vcall o n ft ca ?q x] => change q with (quoted H f ft) in Hr end.
      destruct (venc H vcall o n ft ca (quoted H f ft) x) as [b [e|]| | ] eqn:Ev; try discriminate.
      assert (Lb : (length b <= weight x + 4)%nat).
      { eapply G; [left; reflexivity | | exact Ev]. split; [rewrite <- isDeniedField_spec; congruence|]. split; [split; assumption|]. rewrite <- dropped_spec, O1, O2. discriminate. }
      assert (Lk := key_text_length o (f_name f)). apply IH in Hr.
      destruct (f_omitNil f && (h_impl H ft MJson || h_impl H (TPtr ft) MJson) && tail_null b), first; rewrite ?app_length in Hr; cbn [length] in Hr; lia.
  Qed.

  Lemma sum_ints b : list_sum (map (fun v => weight v + 1)%nat (map VInt b)) = (21 * length b)%nat.
  Proof. induction b as [|z b IH]; [reflexivity|]. cbn [map list_sum fold_right weight length] in *. unfold list_sum in IH. lia. Qed.

  Lemma elems_length (P : val -> bytes -> Prop) vs bs : (forall v b, In v vs -> P v b -> (length b <= weight v)%nat) -> Forall2 P vs bs ->
    forall first, (length (join_elems first bs) <= list_sum (map (fun v => weight v + 1)%nat vs) + (if first then 2 else 1))%nat.
  Proof.
    intros G F. induction F as [|v b vs bs Hv _ IH]; intros first; [destruct first; cbn; lia|].
    cbn [join_elems length map]. rewrite app_length. change (list_sum (weight v + 1 :: map (fun v => weight v + 1) vs))%nat with (weight v + 1 + list_sum (map (fun v => weight v + 1) vs))%nat.
    assert (A := G v b (or_introl eq_refl) Hv). specialize (IH ltac:(intros; apply G; [right|]; assumption) false). cbn [Nat.add] in *. destruct first; lia.
  Qed.

  Lemma members_length kvs : (length (join_members kvs) <= list_sum (map (fun kv => length (fst kv) + length (snd kv) + 2) kvs))%nat.
  Proof.
    induction kvs as [|kv kvs IH]; [cbn; lia|].
    change (list_sum (map (fun kv => length (fst kv) + length (snd kv) + 2) (kv :: kvs)))%nat with (length (fst kv) + length (snd kv) + 2 + list_sum (map (fun kv => length (fst kv) + length (snd kv) + 2) kvs))%nat.
    cbn [join_members]. destruct kvs as [|kv2 kvs]; [unfold member_text; rewrite app_length; cbn [length]; lia|]. rewrite app_length. unfold member_text at 1. rewrite app_length. cbn [length]. lia.
  Qed.

  Lemma entries_length (f : val * val -> vres * vres) es kvs : Forall2 gives (map f es) kvs ->
    (forall e, In e es -> forall kv, gives (f e) kv -> (length (fst kv) + length (snd kv) + 2 <= weight (fst e) + weight (snd e) + 4)%nat) ->
    (list_sum (map (fun kv => length (fst kv) + length (snd kv) + 2) kvs) <= list_sum (map (fun e => weight (fst e) + weight (snd e) + 4) es))%nat.
  Proof.
    intros A G. revert kvs A. induction es as [|e0 es IHe]; intros kvs A; cbn [map] in A; inversion A as [|? kv ? kvs0 A1 A2]; subst; [cbn; lia|].
    assert (X := G e0 (or_introl eq_refl) kv A1). specialize (IHe ltac:(intros; eapply G; [right; eassumption | assumption]) kvs0 A2). cbn [map].
    repeat match goal with |- context[list_sum (?a :: ?l)] => change (list_sum (a :: l)) with (a + list_sum l)%nat end. apply Nat.add_le_mono; assumption.
  Qed.

  (** The types with an encoding of their own. *)
  Lemma int64_length n : - 2 ^ 63 <= n < 2 ^ 63 -> (length (append_int [] n) <= 20)%nat.
  Proof.
    intros R. destruct (encode_int_spec KInt64 n [] R) as (s & Es & L). unfold encode_int in Es. cbn [signed] in Es. rewrite (wrap_i_id 64 n ltac:(lia) R) in Es. rewrite Es. cbn [app].
    inversion L as [|ds J N E1 E2|ds J N E1 E2]; subst; [cbn; lia | |].
    - apply jint_length; [exact J | lia|]. cbn; lia.
    - cbn [length]. assert ((length ds <= 19)%nat); [|lia]. apply jint_length; [exact J | lia|]. cbn; lia.
  Qed.
  Lemma bset_length buf i x b : bset buf i x = Some b -> length b = length buf.
  Proof. unfold bset. destruct (i <? length buf)%nat; [|discriminate]. intros [= <-]. apply set_nth_length. Qed.
  Lemma put_digits_length : forall k buf n x b, put_digits k buf n x = Some b -> length b = length buf.
  Proof.
    induction k as [|k IH]; intros buf n x b Hp; cbn [put_digits] in Hp; [congruence|].
    destruct (bset buf _ _) as [b1|] eqn:Eb; [|discriminate]. rewrite (IH _ _ _ _ Hp). eapply bset_length; eauto.
  Qed.
  Ltac bsets := repeat match goal with Hx : (match bset ?bf ?i ?x with _ => _ end) = Some _ |- _ =>
    let Eb := fresh in destruct (bset bf i x) eqn:Eb; [apply bset_length in Eb | discriminate Hx] end.
  Lemma rfc3339_length g nano out : appendRFC3339Time g [] nano = Some out -> (length out <= 37)%nat.
  Proof.
    unfold appendRFC3339Time. cbn zeta. destruct (rfc_head _) as [buf|] eqn:Eh; [|discriminate]. destruct (rfc_head_safe _ _ Eh) as (pre & Eb & L & _).
    assert (L0 : length buf = 37%nat) by (rewrite Eb, app_length, repeat_length; lia). clear Eh Eb L pre.
    destruct (frac_step nano (t_nsec g) buf 20) as [[b1 n1]|] eqn:Ef; [|discriminate].
    assert (L1 : length b1 = 37%nat).
    { unfold frac_step in Ef. destruct (nano && negb (t_nsec g =? 0)); [|congruence]. bsets. destruct (put_digits 9 _ 20 _) as [b2|] eqn:Ed; [|discriminate]. apply put_digits_length in Ed.
      injection Ef as <- _. congruence. }
    destruct (zone_step (t_offset g) b1 n1) as [[b2 n2]|] eqn:Ez; [|discriminate].
    assert (L2 : length b2 = 37%nat).
    { unfold zone_step in Ez. destruct (t_offset g =? 0); bsets; injection Ez as <- _; congruence. }
    destruct (bset b2 n2 34) as [b3|] eqn:E3; [|discriminate]. apply bset_length in E3. intros [= <-]. cbn [app]. rewrite firstn_length. lia.
  Qed.

  Lemma native_length n t ca q v out : native t = true -> held H m (t, ca, q, v) -> tree_node (t, ca, q, v) ->
    (forall t' ca' v' b, child H o (t, ca, q, v) (t', ca', false, v') -> venc H vcall o n t' ca' false v' = VRet b None -> (length b <= weight v')%nat) ->
    vnative H o (venc H vcall o n) n t v = VRet out None -> (length out <= weight v)%nat.
  Proof.
    intros Nt Hh T Ch Hr. destruct Hh as (Ht & l & Hl). destruct t; try discriminate Nt; cbn [vnative] in Hr; cbn [tree_node native] in T; destruct v; try discriminate Hr; cbn [weight].
    - apply lift_ret in Hr. destruct (inv_time _ _ _ _ _ Hl) as (_ & _ & Hg). unfold encode_time in Hr. destruct (_ || _); [discriminate|].
      destruct (has (o_flags o) unixTime); [injection Hr as <-; etransitivity; [apply int64_length, Hg | lia]|].
      destruct (bytes_eqb (o_timeLayout o) layout_RFC3339) eqn:E1; [destruct (appendRFC3339Time _ _ _) as [x|] eqn:Ea; [|discriminate]; injection Hr as <-; eapply rfc3339_length; eauto|].
      destruct (bytes_eqb (o_timeLayout o) layout_RFC3339Nano) eqn:E2; [destruct (appendRFC3339Time _ _ _) as [x|] eqn:Ea; [|discriminate]; injection Hr as <-; eapply rfc3339_length; eauto|].
      exfalso. destruct T as [T|[T|T]]; [discriminate | rewrite T, bytes_eqb_refl in E1; discriminate | rewrite T, bytes_eqb_refl in E2; discriminate].
    - apply lift_ret in Hr. destruct (inv_int _ _ _ _ _ Hl) as (k & Hk & _ & R). cbn [under] in Hk. injection Hk as <-. cbn [int_range signed] in R. destruct T as (T1 & T2 & T3). unfold encode_duration in Hr.
      replace (o_durationFmt o =? DurationMinutes) with false in Hr by lia. replace (o_durationFmt o =? DurationSeconds) with false in Hr by lia. replace (o_durationFmt o =? DurationString) with false in Hr by lia.
      assert (R0 : - 2 ^ 63 <= n0 < 2 ^ 63) by exact R.
      assert (Q1 : - 2 ^ 63 <= Z.quot n0 1000 < 2 ^ 63) by (clear -R0; Z.to_euclidean_division_equations; lia).
      assert (Q2 : - 2 ^ 63 <= Z.quot n0 1000000 < 2 ^ 63) by (clear -R0; Z.to_euclidean_division_equations; lia).
      destruct (_ =? _); [|destruct (_ =? _)]; injection Hr as <-; apply int64_length; [exact Q1 | exact Q2 | exact R0].
    - apply lift_ret in Hr. unfold encode_number in Hr. destruct (_ && _); [discriminate|]. injection Hr as <-. cbn [app]. destruct s; cbn [length]; lia.
    - apply lift_ret in Hr. injection Hr as <-. cbn. lia.
    - destruct (vbytes vs) as [b|] eqn:Eb; [|discriminate]. apply lift_ret in Hr. assert (Hb : bytes_ok b) by (eapply (vbytes_ok H m l TRawMessage (TInt KUint8)); eauto).
      rewrite (Properties_Bytes.vbytes_inv _ _ Eb). rewrite sum_ints. cbn [encode_raw_message] in Hr. destruct (has (o_flags o) noCompact); injection Hr as <-; [cbn [app]; lia|].
      rewrite appendCompactJSON_spec by exact Hb. cbn [app]. assert (X := cs_length (negb (has (o_flags o) noHTMLEscaping)) _ false false b (Nat.le_refl _)). lia.
    - destruct (ventries_ret H o _ out SO Hr) as (kvs & kvs' & A & B & -> & _). cbn [length]. rewrite app_length. cbn [length].
      assert (X := members_length kvs'). assert (Pe : list_sum (map (fun kv => length (fst kv) + length (snd kv) + 2)%nat kvs) = list_sum (map (fun kv => length (fst kv) + length (snd kv) + 2)%nat kvs')) by (apply Permutation_list_sum, Permutation_map, B).
      rewrite <- Pe in X. clear Pe B. enough (L : (list_sum (map (fun kv => length (fst kv) + length (snd kv) + 2) kvs) <= list_sum (map (fun e => weight (fst e) + weight (snd e) + 4) es))%nat) by lia.
      apply (entries_length _ _ _ A). intros [k x] Hi [kb xb] [Hk Hx]. cbn [fst snd] in *.
      destruct x as [| | | | | |vt x| | | | | | |]; try discriminate Hx. cbn [vsync_val] in Hx. apply vany_ret in Hx. assert (A1 := Ch _ _ _ _ (ch_sval H o ca q es k vt x Hi) Hx).
      destruct k as [| | | | | |kt k| | | | | | |]; try discriminate Hk. cbn [vsync_key] in Hk. cbn [weight].
      destruct (isString E kt) eqn:Is; cbn [negb andb] in Hk.
      + destruct k; try discriminate. injection Hk as <-. cbn [weight].
        destruct (inv_sync _ _ _ _ _ Hl) as (_ & efs & Q1 & Q2 & Q3). destruct (In_nth_error _ _ Hi) as [j Hj]. destruct (nth_error efs j) as [[ka va]|] eqn:Ej.
        2:{ apply nth_error_None in Ej. assert (j < length es)%nat by (apply nth_error_Some; congruence). lia. }
        destruct (Q3 _ _ _ _ _ Ej Hj) as [W1 W2]. destruct (any_held H vcall OK m _ _ _ false false W1) as (_ & l' & Hl').
        assert (Y := encode_string_length o s (proj2 (proj2 (inv_str H m _ _ _ Hl')))). lia.
      + destruct (negb (isInteger E kt) && negb (h_impl H kt MText)) eqn:Ek; [discriminate|].
        assert (Hkk : (isInteger E kt || h_impl H kt MText) = true) by (destruct (isInteger E kt), (h_impl H kt MText); auto).
        apply vquote_if_none in Hk. destruct Hk as (b' & Hb' & ->). apply vany_ret in Hb'. assert (A2 := Ch _ _ _ _ (ch_skey H o ca q es kt k _ Hi Is Hkk) Hb').
        destruct (negb (h_impl H kt MText)); cbn [length]; rewrite ?app_length; cbn [length]; lia.
  Qed.

  Lemma tree_length : forall n t ca q v out, held H m (t, ca, q, v) -> (forall y, part H o (t, ca, q, v) y -> tree_node y) ->
    venc H vcall o n t ca q v = VRet out None -> (length out <= weight v + quotes q)%nat.
  Proof.
    induction n as [|n IH]; intros t ca q v out Hh T Hr; [discriminate|]. assert (Tx := T _ (part_refl _ _ _)).
    assert (Ch : forall t' ca' q' v' b, child H o (t, ca, q, v) (t', ca', q', v') -> venc H vcall o n t' ca' q' v' = VRet b None -> (length b <= weight v' + quotes q')%nat).
    { intros t' ca' q' v' b Hc Hb. apply (IH t' ca' q'); [eapply (child_held H vcall OK o m); eauto | intros y Hy; apply T; eapply part_step; eauto | exact Hb]. }
    assert (Ch0 : forall t' ca' v' b, child H o (t, ca, q, v) (t', ca', false, v') -> venc H vcall o n t' ca' false v' = VRet b None -> (length b <= weight v')%nat).
    { intros t' ca' v' b Hc Hb. rewrite <- Nat.add_0_r. exact (Ch _ _ _ _ _ Hc Hb). }
    cbn [venc] in Hr. destruct (native t) eqn:Nt; [etransitivity; [eapply native_length; eauto | lia]|].
    cbn [tree_node] in Tx. rewrite Nt in Tx. destruct Tx as ([P1 P2] & K). assert (P : DocSpec.plain H t ca) by (split; assumption). destruct Hh as (Ht & l & Hl).
    rewrite P2 in Hr. unfold vkind in Hr. destruct (under E t) as [ |k|fb| | | | | |ms|e|e|a e|kt et| | | | | | | ] eqn:U; try solve [destruct K].
    - destruct v; try discriminate. cbn [weight]. eapply vquote_if_length; [exact Hr|]. destruct b; cbn; lia.
    - destruct v; try discriminate. cbn [weight]. eapply vquote_if_length; [exact Hr|]. destruct (inv_int H m _ _ _ Hl) as (k' & U' & _ & R). rewrite U in U'. injection U' as <-.
      destruct (encode_int_spec k n0 [] R) as (s & -> & L). cbn [app].
      inversion L as [|ds J N E1 E2|ds J N E1 E2]; subst; [cbn; lia | |].
      + apply jint_length; [exact J | lia|]. destruct k; unfold int_range in R; cbn in R |- *; lia.
      + cbn [length]. assert ((length ds <= 19)%nat); [|lia]. apply jint_length; [exact J | lia|]. destruct k; unfold int_range in R; cbn in R |- *; lia.
    - destruct v; try discriminate. cbn [weight]. destruct K as [SE Fl]. unfold lift in Hr. destruct (appendFloat (h_shortest H) [] f fb) as [x [e|]| |] eqn:Ea; try (destruct q; discriminate).
      eapply vquote_if_length; [exact Hr|]. apply (append_spelled _ _ _ _ (proj1 SE)) in Ea. assert (L := spelled_length (h_shortest H) fb f x SE ltac:(intros neg mm e ->; exact (Fl _ _ _ eq_refl)) Ea).
      match type of L with context[if ?c then _ else _] => destruct c; lia end.
    - destruct v; try discriminate. cbn [weight]. assert (Hb : bytes_ok s) by apply (inv_str H m _ _ _ Hl). destruct q; cbn [quotes].
      + assert (out = encode_quoted_string [] s o) as -> by congruence. apply quoted_string_length, Hb.
      + assert (out = encode_string [] s o) as -> by congruence. rewrite Nat.add_0_r. apply encode_string_length, Hb.
    - destruct v; try discriminate; [injection Hr as <-; cbn; lia|]. destruct ms; [discriminate|]. apply vany_ret in Hr. cbn [weight]. etransitivity; [eapply Ch; [eapply ch_iface; eauto | exact Hr] | cbn [quotes]; lia].
    - destruct v; try discriminate; [injection Hr as <-; cbn; lia|]. cbn [weight]. eapply Ch; [eapply ch_ptr; eauto | exact Hr].
    - destruct v; try discriminate.
      + cbn [weight]. destruct (byte_elem H e); [injection Hr as <-; cbn; lia|]. destruct (has _ _); injection Hr as <-; cbn; lia.
      + destruct (byte_elem H e) eqn:Be.
        * destruct (vbytes vs) as [b|] eqn:Eb; [|discriminate]. assert (out = encode_byte_slice (Some b) [] o) as -> by congruence. assert (Hb : bytes_ok b) by (eapply (vbytes_ok H); eauto; apply byte_elem_under; exact Be).
          rewrite (Properties_Bytes.vbytes_inv _ _ Eb). cbn [weight]. rewrite sum_ints. destruct (has (o_flags o) rawByteSlice) eqn:F.
          -- unfold encode_byte_slice. rewrite F. assert (X := encode_string_length o b Hb). unfold encode_string in X. cbn [app] in X |- *. lia.
          -- rewrite (byte_slice_length b o Hb F). zify. lia.
        * apply velems_ret in Hr. destruct Hr as (bs & Hf & ->). cbn [app weight]. etransitivity; [eapply (elems_length _ _ _ (fun v b Hi Hv => Ch0 _ _ _ _ (ch_slice _ _ _ _ _ _ _ _ P U Be Hi) Hv) Hf true) | cbn beta iota; lia].
    - destruct v; try discriminate. destruct (byte_elem H e && has (o_flags o) byteArrayAsString) eqn:Be.
      + destruct (vbytes vs) as [b|] eqn:Eb; [|discriminate]. injection Hr as <-. apply andb_true_iff in Be. destruct Be as [Be _].
        assert (Hb : bytes_ok b) by (eapply (vbytes_arr_ok H); eauto; apply byte_elem_under; exact Be).
        rewrite (Properties_Bytes.vbytes_inv _ _ Eb). cbn [weight]. rewrite sum_ints. assert (X := encode_string_length o b Hb). lia.
      + apply velems_ret in Hr. destruct Hr as (bs & Hf & ->). cbn [app weight]. etransitivity; [eapply (elems_length _ _ _ (fun v b Hi Hv => Ch0 _ _ _ _ (ch_array _ _ _ _ _ _ _ _ _ P U Be Hi) Hv) Hf true) | cbn beta iota; lia].
    - destruct (key_ok H kt) eqn:Ko; cbn [negb] in Hr; [|discriminate]. destruct v; try discriminate.
      + destruct (has _ _); injection Hr as <-; cbn; lia.
      + cbn [weight].
        assert (Hr' : exists kvs kvs', Forall2 gives (map (fun kv => (vkey H o (venc H vcall o n) kt (fst kv), venc H vcall o n et false false (snd kv))) es) kvs /\ Permutation kvs kvs' /\ out = 123 :: join_members kvs' ++ [125]).
        { destruct es as [|e0 es]; [injection Hr as <-; exists [], []; repeat constructor|]. apply (ventries_ret H o _ _ SO) in Hr. destruct Hr as (kvs & kvs' & A & B & C & _). exists kvs, kvs'. split; [exact A | split; [exact B | exact C]]. }
        destruct Hr' as (kvs & kvs' & A & B & ->). cbn [length]. rewrite app_length. cbn [length].
        assert (L : (list_sum (map (fun kv => length (fst kv) + length (snd kv) + 2) kvs') <= list_sum (map (fun e => weight (fst e) + weight (snd e) + 4) es))%nat).
        { assert (Pe : list_sum (map (fun kv => length (fst kv) + length (snd kv) + 2)%nat kvs) = list_sum (map (fun kv => length (fst kv) + length (snd kv) + 2)%nat kvs')) by (apply Permutation_list_sum, Permutation_map, B). rewrite <- Pe.
          assert (G : forall e, In e es -> forall kv, gives (vkey H o (venc H vcall o n) kt (fst e), venc H vcall o n et false false (snd e)) kv -> (length (fst kv) + length (snd kv) + 2 <= weight (fst e) + weight (snd e) + 4)%nat).
          { intros [k x] Hi [kb xb] [Hk Hx]. cbn [fst snd] in *. assert (A1 := Ch0 _ _ _ _ (ch_elem _ _ _ _ _ _ _ _ _ _ P U Ko Hi) Hx). unfold vkey in Hk. destruct (isString E kt) eqn:Is.
            - destruct k; try discriminate. injection Hk as <-. cbn [weight].
              destruct (inv_map H m _ _ _ Hl) as (k0 & e0 & a & addrs & Q1 & Q2 & Q3 & Q4 & Q5 & Q6). rewrite U in Q1. injection Q1 as <- <-.
              destruct (In_nth_error _ _ Hi) as [j Hj]. destruct (nth_error addrs j) as [[ka va]|] eqn:Ej.
              2:{ apply nth_error_None in Ej. assert (j < length es)%nat by (apply nth_error_Some; congruence). lia. }
              destruct (Q6 _ _ _ _ _ Ej Hj) as [W1 _]. assert (X := encode_string_length o s (proj2 (proj2 (inv_str H m _ _ _ W1)))). lia.
            - rewrite K in Hk. cbn [andb negb] in Hk. apply vquote_if_none in Hk. destruct Hk as (b' & Hb' & ->).
              assert (A2 := Ch0 _ _ _ _ (ch_key _ _ _ _ _ _ _ _ _ _ P U Ko Hi Is ltac:(rewrite K; reflexivity)) Hb'). cbn [length]. rewrite app_length. cbn [length]. lia. }
          exact (entries_length _ _ _ A G). }
        assert (X := members_length kvs'). lia.
    - destruct v; try discriminate. unfold vstruct in Hr. destruct (fields_of H t) as [|d ds] eqn:Ef; [injection Hr as <-; cbn; lia|]. destruct (structFields H n t) as [fl|] eqn:Es; [|discriminate].
      assert (L := fields_length n t ca (VStruct vs) fl). specialize (L ltac:(intros f ft x b Hf Hs Hv; etransitivity; [eapply Ch; [eapply ch_field; eauto | exact Hv] | destruct (quoted H f ft); cbn [quotes]; lia]) true [] out Hr).
      assert (S1 := selected_sum H vcall OK weight ltac:(reflexivity) ltac:(intros us; cbn [weight]; unfold sum_of; lia) t n fl vs Ht Es). assert (S2 := K n fl Es). cbn [weight]. unfold sum_of in S1 at 2. cbn [length] in L. lia.
  Qed.

  (** The document is at most as long as the bound, which is linear in the size
      of the value, whatever the options. *)
  Theorem C70_document t w v opts out : call H m t w v opts o -> (forall y, part H o (t, is_ptr H t, false, v) y -> tree_node y) ->
    marshal_returns H m (Some (t, w)) opts (MOk out) -> (length out <= weight v)%nat.
  Proof.
    intros C T R. rewrite <- Nat.add_0_r. change 0%nat with (quotes false). assert (Hh := call_held H vcall OK m t w v opts o C). apply (call_bytes H vcall OK m t w v opts o C) in R. destruct R as [n Hn]. eapply tree_length; eauto.
  Qed.
End Tree.

(** ** Instances *)
Example C70_string_example : (9 <= length (lit """\u003ca\ufffd\n\u2028""") <= 44)%nat.
Proof.
  apply (C70_string exH ex_vcall (bytes_mem [60; 97; 255; 10; 226; 128; 168]) TString 100 [60; 97; 255; 10; 226; 128; 168] [] default_opts _ ex_ok); try reflexivity.
  - split; [reflexivity | split; reflexivity].
  - apply str_holds, bytes_okb_ok. reflexivity.
  - exists 3%nat. split; [vm_compute; reflexivity | discriminate].
Qed.
Example C70_integer_example : (1 <= length (lit "-9223372036854775808") <= int_width KInt64)%nat.
Proof.
  apply (C70_integer exH ex_vcall (cell_mem (CInt KInt64 (- 2 ^ 63))) (TInt KInt64) 100 KInt64 (- 2 ^ 63) [] default_opts _ ex_ok eq_refl (conj eq_refl eq_refl)); [apply int_holds; cbn; lia | reflexivity | exact C09_ex].
Qed.
Example C70_time_example : (22 <= length (lit """2024-02-29T23:59:59.12-07:30""") <= 37)%nat.
Proof.
  apply (C70_time exH ex_vcall (cell_mem (CTime leap_day)) 100 leap_day [] default_opts true 2024 _ ex_ok (time_holds _ leap_day_ok) eq_refl); [split; reflexivity | apply local_year_iff; reflexivity | lia | cbn; lia | exact C11_ex].
Qed.
(** The bound is attained. *)
Definition long_float : fval := FFin true 4899252053004896 (-71).
Example C70_float_example : (1 <= length (lit "-0.0000020749139528992094") <= 25)%nat.
Proof.
  apply (C70_float flH fl_vcall (cell_mem (CFloat true long_float)) (TFloat true) 100 true long_float [] default_opts _ fl_ok shortest_dec_exact eq_refl (conj eq_refl eq_refl) (fl_float true long_float));
    [vm_compute; intuition discriminate | reflexivity | exists 3%nat; split; [vm_compute; reflexivity | discriminate]].
Qed.
Example C70_float_attained : exists out, marshal_returns flH (cell_mem (CFloat true long_float)) (Some (TFloat true, 100)) [] (MOk out) /\ length out = 25%nat.
Proof. exists (lit "-0.0000020749139528992094"). split; [exists 3%nat; split; [vm_compute; reflexivity | discriminate] | reflexivity]. Qed.
(** Four bytes: two groups of four characters. *)
Example C70_bytes_example : length (lit """ABCD/w==""") = 10%nat.
Proof.
  apply (C70_bytes (plainH []) plainV _ (TSlice (TInt KUint8)) _ (TInt KUint8) (map VInt [0; 16; 131; 255]) [] default_opts _ (plainH_ok [] eq_refl) (plain_call [] 6 (TSlice (TInt KUint8)) (VSlice (map VInt [0; 16; 131; 255])) [] default_opts eq_refl ltac:(vm_compute; reflexivity)));
    [split; reflexivity | reflexivity | reflexivity | reflexivity | exists 20%nat; split; [vm_compute; reflexivity | discriminate]].
Qed.
Example C70_raw_message_example : (length odd_out <= 6 * length odd)%nat.
Proof. apply (C70_raw_message exH ex_vcall _ 100 _ odd [] default_opts odd_out ex_ok (raw_holds odd (lit_bytes _)) (vbytes_map _) eq_refl). exists 3%nat. split; [vm_compute; reflexivity | discriminate]. Qed.
Example C70_marshal_json_example : (length spaced_out <= 6 * length spaced)%nat.
Proof.
  apply (C70_marshal_json jsonH (constV jsonH_result) (cell_mem (CInt KInt 5)) (TNamed 0) 100 (VInt 5) spaced [] default_opts spaced_out jsonH_ok (jsonH_holds 0 ltac:(lia)) eq_refl eq_refl
    (or_intror (jsonH_not_direct 0 ltac:(lia))) eq_refl eq_refl (proj1 C07_ex_method)).
Qed.

(** A type with MarshalText. *)
Definition textH : host := constH [TInt KInt] (fun t k => match t, k with TNamed 0, MText => true | _, _ => false end) (fun _ _ _ => inl (lit "five")).
Lemma textH_ok : host_ok textH (constV (fun _ _ _ => inl (lit "five"))).
Proof. apply constH_ok; [reflexivity|]. intros k td ctx b [= <-]. apply lit_bytes. Qed.
Example C70_marshal_text_example : length (lit """five""") = 6%nat.
Proof.
  assert (C : call textH (mem_of textH (TNamed 0) (VInt 5)) (TNamed 0) (word_of textH (TNamed 0) (VInt 5)) (VInt 5) [] default_opts) by (apply (const_call _ _ _ 6); vm_compute; reflexivity).
  apply (C70_marshal_text textH (constV (fun _ _ _ => inl (lit "five"))) _ (TNamed 0) _ (VInt 5) (lit "five") [] default_opts _ textH_ok (c_holds _ _ _ _ _ _ _ C) eq_refl eq_refl); try reflexivity.
  - right. intros D. inversion D; discriminate.
  - exists 20%nat. split; [vm_compute; reflexivity | discriminate].
Qed.

(** map[string][]int{"<": {1, -2}, "b": nil} *)
Definition tree_t : typ := TMap TString (TSlice (TInt KInt)).
Definition tree_v : val := VMap [(VStr (lit "<"), VSlice [VInt 1; VInt (-2)]); (VStr (lit "b"), VNil)].
Example C70_document_example : (length (lit "{""\u003c"":[1,-2],""b"":null}") <= weight 0 tree_v)%nat.
Proof.
  apply (C70_document (plainH []) plainV (plainH_ok [] eq_refl) (constH_sort _ _ _) (mem_of (plainH []) tree_t tree_v) default_opts 0 tree_t (word_of (plainH []) tree_t tree_v) tree_v []).
  - apply (plain_call [] 8); vm_compute; reflexivity.
  - assert (G : forall x y, part (plainH []) default_opts x y -> forall t ca q v, x = (t, ca, q, v) -> t = tree_t \/ t = TSlice (TInt KInt) \/ t = TInt KInt -> tree_node (plainH []) default_opts 0 y).
    { intros x y Hp. induction Hp as [x|x y z Hc _ IH]; intros t ca q v -> Ht.
      - destruct Ht as [-> | [-> | ->]]; (split; [destruct ca; split; reflexivity | first [exact I | reflexivity]]).
      - destruct y as [[[t' ca'] q'] v']. apply (IH _ _ _ _ eq_refl). remember (t, ca, q, v) as x eqn:Ex. remember (t', ca', q', v') as y eqn:Ey.
        destruct Hc as [? ? ? ? ? _ U|? ? ? ? ? _ U|? ? ? ? ? ? _ U|? ? ? ? ? ? ? _ U|? ? ? ? ? ? ? ? _ U _ _ S0|? ? ? ? ? ? ? ? _ U|? ? ? ? ? ? ? ? ? ? _ U|? ? ? ? ? ? _ _ _|? ? ? ? ? ? _]; inversion Ex; inversion Ey; subst;
          destruct Ht as [Ht|[Ht|Ht]]; try discriminate Ht; subst; cbn in U; try discriminate U; inversion U; subst; try discriminate; auto. }
    intros y Hy. apply (G _ _ Hy _ _ _ _ eq_refl). left; reflexivity.
  - exists 20%nat. split; [vm_compute; reflexivity | discriminate].
Qed.
(** []json.RawMessage{"[ 1, <]", nil}: raw messages are not checked. *)
Definition raws_v : val := VSlice [VSlice (map VInt (lit "[ 1, <]")); VNil].
Example C70_native_example : (length (lit "[[1,\u003c],null]") <= weight 0 raws_v)%nat.
Proof.
  apply (C70_document (plainH []) plainV (plainH_ok [] eq_refl) (constH_sort _ _ _) (mem_of (plainH []) (TSlice TRawMessage) raws_v) default_opts 0 (TSlice TRawMessage) (word_of (plainH []) (TSlice TRawMessage) raws_v) raws_v []).
  - apply (plain_call [] 8); vm_compute; reflexivity.
  - assert (G : forall x y, part (plainH []) default_opts x y -> forall t ca q v, x = (t, ca, q, v) -> t = TSlice TRawMessage \/ t = TRawMessage -> tree_node (plainH []) default_opts 0 y).
    { intros x y Hp. induction Hp as [x|x y z Hc _ IH]; intros t ca q v -> Ht.
      - destruct Ht as [-> | ->]; [split; [destruct ca; split; reflexivity | exact I] | exact I].
      - destruct y as [[[t' ca'] q'] v']. apply (IH _ _ _ _ eq_refl). remember (t, ca, q, v) as x eqn:Ex. remember (t', ca', q', v') as y eqn:Ey.
        destruct Hc as [? ? ? ? ? [N _] U|? ? ? ? ? [N _] U|? ? ? ? ? ? [N _] U|? ? ? ? ? ? ? [N _] U|? ? ? ? ? ? ? ? [N _] U|? ? ? ? ? ? ? ? [N _] U|? ? ? ? ? ? ? ? ? ? [N _] U|? ? ? ? ? ? _ _ _|? ? ? ? ? ? _]; inversion Ex; inversion Ey; subst;
          destruct Ht as [Ht|Ht]; try discriminate Ht; subst; try discriminate; inversion U; subst; auto. }
    intros y Hy. apply (G _ _ Hy _ _ _ _ eq_refl). left; reflexivity.
  - exists 20%nat. split; [vm_compute; reflexivity | discriminate].
Qed.
(** A struct with embedded structs and the string option (field_v in
    Properties_Members.v): the names X, w x and Y, n and S. *)
Example C70_struct_example : (length (lit "{""X"":5,""w x"":""2"",""Y"":true}") <= weight 82 field_v)%nat.
Proof.
  apply (C70_document fieldH plainV field_ok (constH_sort _ _ _) (mem_of fieldH (TNamed 2) field_v) default_opts 82 (TNamed 2) (word_of fieldH (TNamed 2) field_v) field_v []); [exact field_call | | exact field_good].
  assert (D : forall k fs, structFields fieldH k (TNamed 2) = Some fs -> fs = field_fs) by (intros k fs Hk; eapply structFields_det; [exact Hk | exact field_sf]).
  assert (G : forall x y, part fieldH default_opts x y -> forall t ca q v, x = (t, ca, q, v) -> t = TNamed 2 \/ t = TSlice (TInt KInt) \/ t = TInt KInt \/ t = TBool -> tree_node fieldH default_opts 82 y).
  { intros x y Hp. induction Hp as [x|x y z Hc _ IH]; intros t ca q v -> Ht.
    - destruct Ht as [-> | [-> | [-> | ->]]]; (split; [destruct ca; split; reflexivity | try exact I]). intros k fs Hk. rewrite (D k fs Hk). vm_compute. repeat constructor.
    - destruct y as [[[t' ca'] q'] v']. apply (IH _ _ _ _ eq_refl). remember (t, ca, q, v) as x eqn:Ex. remember (t', ca', q', v') as y eqn:Ey.
      destruct Hc as [? ? ? ? ? _ U|? ? ? ? ? _ U|? ? ? ? ? ? _ U|? ? ? ? ? ? ? _ U|? ? ? ? ? ? ? ? _ U _ _ S0|? ? ? ? ? ? ? ? _ U|? ? ? ? ? ? ? f ft y0 _ U Sf If Sh|? ? ? ? ? ? _ _ _|? ? ? ? ? ? _]; inversion Ex; inversion Ey; subst;
        destruct Ht as [Ht|[Ht|[Ht|Ht]]]; try discriminate Ht; subst; cbn in U; try discriminate U; try solve [inversion U; subst; auto].
      apply D in Sf. subst. destruct Sh as (_ & [_ Ft] & _). vm_compute in If.
      repeat (destruct If as [If|If]; [subst f; vm_compute in Ft; injection Ft as <-; auto|]). destruct If. }
  intros y Hy. apply (G _ _ Hy _ _ _ _ eq_refl). left; reflexivity.
Qed.

Print Assumptions C70_string.
Print Assumptions C70_string_attained.
Print Assumptions C70_integer.
Print Assumptions C70_time.
Print Assumptions C70_float.
Print Assumptions C70_bytes.
Print Assumptions C70_raw_message.
Print Assumptions C70_marshal_json.
Print Assumptions C70_marshal_text.
Print Assumptions C70_document.
