(** The scalar encoders append to the buffer, whatever it holds. *)
From Verif Require Import Base IntModel JsonSpec JsonParse OptionsModel EscapeModel EscapeProof CompactModel CompactProof TypesModel TypesFacts
  TagsModel TagsProof DurationModel TimeModel FloatModel FloatProof LeafModel LeafProof Base64Model MemModel
  FieldsSpec FieldsModel FieldsProof FieldsThm InstrModel ExecModel ValueModel ExecMono.

(** ** Scalar encoders append to what is there *)
Definition app_res (dst : bytes) (r : res) : res := match r with Ret b e => Ret (dst ++ b) e | r => r end.

Lemma escaped_app dst b o : bytes_ok b -> appendEscapedBytes dst b o = dst ++ appendEscapedBytes [] b o.
Proof. apply appendEscapedBytes_app. Qed.

Lemma encode_bool_app dst b : encode_bool b dst = dst ++ encode_bool b [].
Proof. reflexivity. Qed.

Lemma encode_quoted_app dst s o : bytes_ok s -> encode_quoted_string dst s o = dst ++ encode_quoted_string [] s o.
Proof.
  intros Hs. unfold encode_quoted_string. rewrite (escaped_app (dst ++ l_qbq)), (escaped_app ([] ++ l_qbq)) by assumption.
  rewrite <- !app_assoc. reflexivity.
Qed.

Lemma append_int_app dst n : append_int dst n = dst ++ append_int [] n.
Proof. unfold append_int. destruct (n <? 0); reflexivity. Qed.

Lemma encode_int_app dst k n : encode_int k n dst = dst ++ encode_int k n [].
Proof. unfold encode_int, append_uint. destruct (signed k); [apply append_int_app | reflexivity]. Qed.

Lemma fmt_exp_len e : (3 <= length (fmt_exp e))%nat.
Proof. unfold fmt_exp. cbn [length]. repeat match goal with |- context [if ?b then _ else _] => destruct b end; cbn; lia. Qed.

Lemma fmtE_len ds dp : (4 <= length (fmtE ds dp))%nat.
Proof.
  unfold fmtE. destruct ds as [|d [|d' ds]]; cbn [length]; rewrite ?app_length; cbn [length];
    match goal with |- context [fmt_exp ?e] => pose proof (fmt_exp_len e) end; lia.
Qed.

Lemma appendFloat_app shortest dst f b : appendFloat shortest dst f b = app_res dst (appendFloat shortest [] f b).
Proof.
  unfold appendFloat. destruct f as [|neg|neg|neg p e]; cbn [app_res]; try (rewrite app_nil_r; reflexivity).
  - destruct (use_exp b (FZero neg)) eqn:Eu; [discriminate Eu|]. reflexivity.
  - destruct (use_exp b (FFin neg p e)); [|reflexivity]. cbn [app]. f_equal. apply exp_cleanup_app.
    unfold fmt_float. destruct (shortest b p e) as [ds dp]. rewrite app_length. pose proof (fmtE_len ds dp). lia.
Qed.

Lemma encode_number_app s dst o : encode_number s dst o = app_res dst (encode_number s [] o).
Proof. unfold encode_number. destruct (_ && _); cbn [app_res]; rewrite ?app_nil_r; reflexivity. Qed.

Lemma compact_app dst s esc : bytes_ok s -> appendCompactJSON dst s esc = dst ++ appendCompactJSON [] s esc.
Proof. intros Hs. rewrite !appendCompactJSON_spec by assumption. reflexivity. Qed.

Lemma encode_raw_app v dst o : (forall b, v = Some b -> bytes_ok b) -> encode_raw_message v dst o = app_res dst (encode_raw_message v [] o).
Proof.
  intros Hv. unfold encode_raw_message. destruct v as [b|]; [|reflexivity]. destruct (has (o_flags o) noCompact); [reflexivity|].
  cbn [app_res]. rewrite compact_app by (apply Hv; reflexivity). reflexivity.
Qed.

Lemma encode_time_app fmt t dst o : encode_time fmt t dst o = app_res dst (encode_time fmt t [] o).
Proof.
  unfold encode_time. destruct (_ || _); [cbn; rewrite app_nil_r; reflexivity|].
  destruct (has (o_flags o) unixTime); [cbn [app_res]; rewrite append_int_app; reflexivity|].
  assert (R : forall nano, ret_opt (appendRFC3339Time t dst nano) = app_res dst (ret_opt (appendRFC3339Time t [] nano))).
  { intros nano. unfold appendRFC3339Time. destruct (rfc_head _) as [b|]; [|reflexivity].
    destruct (frac_step nano (t_nsec t) b 20) as [[b1 n1]|]; [|reflexivity].
    destruct (zone_step (t_offset t) b1 n1) as [[b2 n2]|]; [|reflexivity].
    destruct (BufModel.bset b2 n2 34); reflexivity. }
  destruct (bytes_eqb (o_timeLayout o) layout_RFC3339); [apply R|]. destruct (bytes_eqb (o_timeLayout o) layout_RFC3339Nano); [apply R|].
  reflexivity.
Qed.

Lemma dur_sign_app dst n r : dur_sign dst n r = match dur_sign [] n r with Some x => Some (dst ++ x) | None => None end.
Proof.
  unfold dur_sign. repeat match goal with |- context [match ?x with _ => _ end] => destruct x end; reflexivity.
Qed.

Lemma append_duration_app dst d : append_duration dst d = match append_duration [] d with Some x => Some (dst ++ x) | None => None end.
Proof.
  unfold append_duration. set (u := if d <? 0 then _ else _).
  destruct (u <? second).
  - destruct (BufModel.bpush (repeat 0 32) 32 115) as [[b l]|]; [|reflexivity]. destruct (u =? 0); [reflexivity|]. apply dur_sign_app.
  - rewrite dur_sign_app. destruct (dur_sign [] (d <? 0) _); reflexivity.
Qed.

Lemma encode_duration_app sh tf d dst o : encode_duration sh tf d dst o = app_res dst (encode_duration sh tf d [] o).
Proof.
  unfold encode_duration. cbv zeta.
  destruct (o_durationFmt o =? DurationMinutes); [apply appendFloat_app|].
  destruct (o_durationFmt o =? DurationSeconds); [apply appendFloat_app|].
  destruct (o_durationFmt o =? DurationMicroseconds); [cbn [app_res]; rewrite append_int_app; reflexivity|].
  destruct (o_durationFmt o =? DurationMilliseconds); [cbn [app_res]; rewrite append_int_app; reflexivity|].
  destruct (o_durationFmt o =? DurationString); [|cbn [app_res]; rewrite append_int_app; reflexivity].
  rewrite (append_duration_app (dst ++ [34])), (append_duration_app ([] ++ [34])). destruct (append_duration [] d); [|reflexivity].
  cbn [app_res]. rewrite <- !app_assoc. reflexivity.
Qed.

Lemma json_result_app t r dst o : (forall b, r = inl b -> bytes_ok b) -> encode_json_result t r dst o = app_res dst (encode_json_result t r [] o).
Proof.
  intros Hr. unfold encode_json_result. destruct r as [b|e]; [|cbn; rewrite app_nil_r; reflexivity].
  destruct (has (o_flags o) noCompact); [reflexivity|]. destruct (json_valid b); cbn [negb]; [|cbn; rewrite app_nil_r; reflexivity].
  cbn [app_res]. rewrite compact_app by auto. reflexivity.
Qed.

Lemma text_result_app t r dst o : encode_text_result t r dst o = app_res dst (encode_text_result t r [] o).
Proof. unfold encode_text_result. destruct r; cbn [app_res]; rewrite ?app_nil_r; reflexivity. Qed.

Lemma byte_slice_app v dst o : (forall b, v = Some b -> bytes_ok b) -> encode_byte_slice v dst o = dst ++ encode_byte_slice v [] o.
Proof.
  intros Hv. unfold encode_byte_slice. destruct v as [b|]; [|reflexivity]. destruct (has (o_flags o) rawByteSlice); [|reflexivity].
  rewrite (escaped_app (dst ++ [34])), (escaped_app ([] ++ [34])) by auto. rewrite <- !app_assoc. reflexivity.
Qed.
