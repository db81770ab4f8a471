(** Property C50: the exact text of a string. *)
From Verif Require Import Base Utf8 JsonSpec OptionsModel JsonParse IntModel EscapeModel EscapeProof TypesModel TypesFacts TimeModel FloatModel LeafModel LeafProof
  MemModel FieldsModel FieldsProof InstrModel ExecModel ValueModel ExecProof MarshalThm DocSpec ApiFacts ExampleHost ExampleVals Properties_Strings.

(** ** The text of a character, as in encoding/json *)
(** The lower-case hexadecimal digit c has the value n. *)
Definition lower_hex (c n : Z) : Prop := 48 <= c <= 57 /\ n = c - 48 \/ 97 <= c <= 102 /\ n = c - 87.

(** [html]: the three HTML characters are escaped; [coerce]: separators are
    escaped and invalid bytes replaced. *)
Inductive char_text (html coerce : bool) : Z + Z -> bytes -> Prop :=
| ct_quote : char_text html coerce (inl 0x22) (lit "\""")
| ct_backslash : char_text html coerce (inl 0x5C) (lit "\\")
| ct_newline : char_text html coerce (inl 0xA) (lit "\n")
| ct_return : char_text html coerce (inl 0xD) (lit "\r")
| ct_tab : char_text html coerce (inl 0x9) (lit "\t")
| ct_control r a b x y : 0 <= r < 0x20 -> r <> 0xA -> r <> 0xD -> r <> 0x9 -> lower_hex a x -> lower_hex b y -> r = 16 * x + y ->
    char_text html coerce (inl r) (lit "\u00" ++ [a; b])
| ct_less : html = true -> char_text html coerce (inl 0x3C) (lit "\u003c")
| ct_greater : html = true -> char_text html coerce (inl 0x3E) (lit "\u003e")
| ct_ampersand : html = true -> char_text html coerce (inl 0x26) (lit "\u0026")
| ct_line : coerce = true -> char_text html coerce (inl 0x2028) (lit "\u2028")
| ct_paragraph : coerce = true -> char_text html coerce (inl 0x2029) (lit "\u2029")
| ct_invalid b : coerce = true -> char_text html coerce (inr b) (lit "\ufffd")
| ct_kept b : coerce = false -> char_text html coerce (inr b) [b]
| ct_other r : 0x20 <= r -> r <> 0x22 -> r <> 0x5C -> (html = true -> r <> 0x3C /\ r <> 0x3E /\ r <> 0x26) ->
    (coerce = true -> r <> 0x2028 /\ r <> 0x2029) -> char_text html coerce (inl r) (utf8 r).

Inductive string_text (html coerce : bool) : list (Z + Z) -> bytes -> Prop :=
| st_nil : string_text html coerce [] []
| st_cons u us x y : char_text html coerce u x -> string_text html coerce us y -> string_text html coerce (u :: us) (x ++ y).

Lemma lower_hex_at n : 0 <= n < 16 -> lower_hex (hex_at n) n.
Proof.
  intros H. assert (C : forall k, 0 <= k < 16 -> n = k -> lower_hex (hex_at k) k -> lower_hex (hex_at n) n) by (intros k _ -> X; exact X).
  destruct (Z.to_nat n) as [|[|[|[|[|[|[|[|[|[|[|[|[|[|[|[|k]]]]]]]]]]]]]]]] eqn:E; try lia;
    [apply (C 0) | apply (C 1) | apply (C 2) | apply (C 3) | apply (C 4) | apply (C 5) | apply (C 6) | apply (C 7) | apply (C 8) | apply (C 9) | apply (C 10) | apply (C 11) | apply (C 12) | apply (C 13) | apply (C 14) | apply (C 15)];
    try lia; match goal with |- lower_hex (hex_at ?k) _ => let v := eval vm_compute in (hex_at k) in change (hex_at k) with v end; unfold lower_hex; lia.
Qed.

Lemma char_text_ok nc ne u : (forall r, u = inl r -> 0 <= r) -> char_text (negb ne) (negb nc) u (esc_seg nc ne u).
Proof.
  intros Hp. destruct u as [r|b]; cbn [esc_seg]; [|destruct nc; [apply ct_kept | apply ct_invalid]; reflexivity].
  specialize (Hp r eq_refl). destruct (r <? 0x80) eqn:E.
  - destruct (EscapeModel.plain ne r) eqn:P.
    + unfold EscapeModel.plain in P. assert (U := utf8_ascii r ltac:(lia)). rewrite <- U. apply ct_other; try lia; destruct ne; cbn [negb]; try discriminate; intros _; lia.
    + unfold EscapeModel.plain in P. unfold esc_ascii.
      destruct ((r =? 34) || (r =? 92)) eqn:E1; [assert (X : r = 34 \/ r = 92) by lia; destruct X as [-> | ->]; [apply ct_quote | apply ct_backslash]|].
      destruct (r =? 10) eqn:E2; [assert (r = 10) by lia; subst; apply ct_newline|]. destruct (r =? 13) eqn:E3; [assert (r = 13) by lia; subst; apply ct_return|].
      destruct (r =? 9) eqn:E4; [assert (r = 9) by lia; subst; apply ct_tab|].
      destruct (Z_lt_le_dec r 32) as [L|L].
      * assert (S1 : Z.shiftr r 4 = r / 16) by (rewrite Z.shiftr_div_pow2 by lia; reflexivity). assert (S2 : Z.land r 15 = r mod 16) by (change 15 with (Z.ones 4); rewrite Z.land_ones by lia; reflexivity).
        rewrite S1, S2. apply (ct_control _ _ r _ _ (r / 16) (r mod 16)); try lia; apply lower_hex_at; lia.
      * assert (N : ne = false) by (destruct ne; [lia | reflexivity]). subst ne. assert (X : r = 60 \/ r = 62 \/ r = 38) by lia.
        destruct X as [-> |[-> | ->]]; [apply ct_less | apply ct_greater | apply ct_ampersand]; reflexivity.
  - destruct nc.
    + apply ct_other; cbn [negb]; try lia; try discriminate.
    + destruct ((r =? 0x2028) || (r =? 0x2029)) eqn:S.
      * assert (X : r = 0x2028 \/ r = 0x2029) by lia. destruct X as [-> | ->]; [apply ct_line | apply ct_paragraph]; reflexivity.
      * apply ct_other; cbn [negb]; try lia; intros _; lia.
Qed.

Lemma char_text_det html coerce u x y : char_text html coerce u x -> char_text html coerce u y -> x = y.
Proof.
  intros X Y. inversion X; subst; inversion Y; subst; try reflexivity; try congruence; try lia;
    try (match goal with Z : true = true -> _ |- _ => specialize (Z eq_refl) end; lia);
    try (match goal with P : ?h = true, Z : ?h = true -> _ |- _ => specialize (Z P) end; lia).
  match goal with |- _ ++ [?a; ?b] = _ ++ [?c; ?d] => assert (a = c /\ b = d) as [-> ->] by (unfold lower_hex in *; lia) end. reflexivity.
Qed.

Lemma string_text_det html coerce us x y : string_text html coerce us x -> string_text html coerce us y -> x = y.
Proof.
  intros X. revert y. induction X as [|u us x1 x2 C _ IH]; intros y Y; inversion Y; subst; [reflexivity|]. f_equal; [eapply char_text_det; eauto | apply IH; assumption].
Qed.

(** ** C50
    Unless NoStringEscaping is set, the text is a quote, the text of each
    character or invalid byte, and a quote; there is no other such text. *)
Theorem C50_text : forall H vcall m t w s opts o segs, host_ok H vcall -> string_type H t -> holds H m t w (VStr s) -> call_opts opts = Some o ->
  has (o_flags o) noStringEscaping = false -> segments s segs ->
  forall out, marshal_returns H m (Some (t, w)) opts (MOk out) <->
    exists x, string_text (negb (has (o_flags o) noHTMLEscaping)) (negb (has (o_flags o) noUTF8Coercion)) segs x /\ out = 34 :: x ++ [34].
Proof.
  intros H vcall m t w s opts o segs OK Ht Hr Ho Hn Hs. assert (Hb := string_bytes H m t w s (proj1 Ht) Hr).
  set (ne := has (o_flags o) noHTMLEscaping). set (nc := has (o_flags o) noUTF8Coercion).
  assert (X : string_text (negb ne) (negb nc) segs (flat_map (esc_seg nc ne) segs)).
  { clear - Hs. induction Hs as [|r s us Hr _ IH|b s us _ _ IH]; cbn [flat_map]; constructor; try exact IH; apply char_text_ok; intros r' [=]; subst. unfold scalar in Hr. lia. }
  assert (E : encode_string [] s o = 34 :: flat_map (esc_seg nc ne) segs ++ [34]).
  { unfold encode_string. rewrite appendEscapedBytes_app by exact Hb. rewrite (escaped_segments o s segs Hb Hs Hn). reflexivity. }
  assert (R := string_marshal H vcall m t w s opts o OK Ht Hr Ho). rewrite E in R. intros out. split.
  - intros R'. assert (Eq := marshal_returns_det _ _ _ _ _ _ R' R). injection Eq as ->. eauto.
  - intros (x & Hx & ->). rewrite (string_text_det _ _ _ _ _ Hx X). exact R.
Qed.

(** U+FFFD of the string itself is kept, an invalid byte is escaped. *)
Definition replaced : bytes := utf8 0xFFFD ++ [0xFF; 9; 0x1F].
Lemma replaced_ok : bytes_ok replaced.
Proof. unfold replaced, bytes_ok. repeat (apply Forall_cons; [unfold is_byte; cbn; lia|]). constructor. Qed.
Example C50_ex : marshal_returns exH (bytes_mem replaced) (Some (TString, 100)) [] (MOk (34 :: utf8 0xFFFD ++ lit "\ufffd\t\u001f""")).
Proof.
  apply (C50_text exH ex_vcall _ TString 100 replaced [] default_opts [inl 0xFFFD; inr 0xFF; inl 9; inl 0x1F] ex_ok string_type_ex (str_holds _ replaced_ok) eq_refl eq_refl).
  - apply (sg_rune 0xFFFD); [unfold scalar; lia|]. apply sg_bad.
    + apply decode_rune_bad. reflexivity.
    + apply (sg_rune 9); [unfold scalar; lia|]. apply (sg_rune 0x1F); [unfold scalar; lia|]. constructor.
  - exists (utf8 0xFFFD ++ lit "\ufffd\t\u001f"). split; [|reflexivity].
    change (lit "\ufffd\t\u001f") with (lit "\ufffd" ++ lit "\t" ++ (lit "\u00" ++ [49; 102]) ++ []).
    apply st_cons; [apply ct_other; try lia; intros _; lia|]. apply st_cons; [apply ct_invalid; reflexivity|]. apply st_cons; [apply ct_tab|].
    apply st_cons; [|constructor]. apply (ct_control _ _ 0x1F 49 102 1 15); unfold lower_hex; lia.
Qed.

Print Assumptions C50_text.
