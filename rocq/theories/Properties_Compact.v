(** C59: the exact text of JSON supplied by the user. *)
From Verif Require Import Base Utf8 JsonSpec OptionsModel EscapeProof JsonParse CompactModel CompactProof CompactText IntModel TypesModel TypesFacts TimeModel FloatModel LeafModel LeafProof
  MemModel FieldsModel FieldsProof InstrModel ExecModel ValueModel ExecProof VencFacts MarshalThm DocSpec PartFacts SafeProof ApiFacts PartsThm DocLeaf StrictParse ExampleHost ExampleVals ExampleConst Properties_Raw.

(** A raw message that is JSON loses the white space outside of its strings, the
    characters that could end a script are escaped in its strings, and every
    other byte is kept. *)
Theorem C59_raw_message H vcall m w vs b lax j opts o r : host_ok H vcall -> holds H m TRawMessage w (VSlice vs) -> vbytes vs = Some b -> json_text lax j b ->
  call_opts opts = Some o -> has (o_flags o) noCompact = false ->
  (marshal_returns H m (Some (TRawMessage, w)) opts r <-> exists out, r = MOk out /\ compact_text (negb (has (o_flags o) noHTMLEscaping)) b out).
Proof.
  intros OK Hr Hv Hj Ho Hn.
  destruct (holds_repr H vcall OK m _ w _ Hr) as [l Hl]. assert (Hb : bytes_ok b) by (apply (vbytes_ok H m l TRawMessage (TInt KUint8) vs b); auto).
  assert (E : encodes H vcall o TRawMessage (VSlice vs) (cs (negb (has (o_flags o) noHTMLEscaping)) false false b) None).
  { apply encodes_native; [exact OK | reflexivity | discriminate | exact I|]. intros rec n. cbn [vnative]. rewrite Hv. cbn [encode_raw_message]. rewrite Hn, appendCompactJSON_spec by exact Hb. reflexivity. }
  assert (M := marshal_iff H vcall OK m _ w _ opts o _ None r Hr Ho E). rewrite M. split.
  - intros ->. eexists. split; [reflexivity|]. apply (compact_text_of _ lax j b Hj Hb). reflexivity.
  - intros (out & -> & C). apply (compact_text_of _ lax j b Hj Hb) in C. rewrite C. reflexivity.
Qed.

(** The same for the result of a MarshalJSON method. *)
Theorem C59_marshal_json H vcall m t w v b lax j opts o r : host_ok H vcall -> holds H m t w v -> native t = false ->
  method_of H t (is_ptr H t) = Some (MJson, false) -> (is_ptr H t = true /\ v <> VNil \/ ~ direct H t) -> vcall MJson t v None = inl b -> json_text lax j b ->
  call_opts opts = Some o -> has (o_flags o) noCompact = false ->
  (marshal_returns H m (Some (t, w)) opts r <-> exists out, r = MOk out /\ compact_text (negb (has (o_flags o) noHTMLEscaping)) b out).
Proof.
  intros OK Hr Hna Hm Hd Hc Hj Ho Hn. assert (Hb := ok_bytes _ _ OK _ _ _ _ _ Hc).
  assert (E : encodes H vcall o t v (cs (negb (has (o_flags o) noHTMLEscaping)) false false b) None).
  { eapply encodes_method; eauto. cbn [vmethod]. rewrite Hc. cbn [encode_json_result]. rewrite Hn.
    assert (V : json_valid b = true) by (apply json_valid_correct; [exact Hb|]; exists j; destruct lax; [exact Hj | apply json_text_of_lax with false; exact Hj]).
    rewrite V. cbn [negb]. rewrite appendCompactJSON_spec by exact Hb. reflexivity. }
  assert (M := marshal_iff H vcall OK m _ w _ opts o _ None r Hr Ho E). rewrite M. split.
  - intros ->. eexists. split; [reflexivity|]. apply (compact_text_of _ lax j b Hj Hb). reflexivity.
  - intros (out & -> & C). apply (compact_text_of _ lax j b Hj Hb) in C. rewrite C. reflexivity.
Qed.

(** There is exactly one such text. *)
Theorem C59_one_text html lax j b : bytes_ok b -> json_text lax j b -> exists out, compact_text html b out /\ forall out', compact_text html b out' -> out' = out.
Proof.
  intros Hb Hj. exists (cs html false false b). assert (C : compact_text html b (cs html false false b)) by (apply (compact_text_of html lax j b Hj Hb); reflexivity).
  split; [exact C|]. intros out' C'. exact (compact_text_det html lax j b _ _ Hj Hb C' C).
Qed.

(** With NoCompact the bytes are copied. *)
Theorem C59_copied H vcall m w vs b opts o r : host_ok H vcall -> holds H m TRawMessage w (VSlice vs) -> vbytes vs = Some b ->
  call_opts opts = Some o -> has (o_flags o) noCompact = true -> (marshal_returns H m (Some (TRawMessage, w)) opts r <-> r = MOk b).
Proof.
  intros OK Hr Hv Ho Hn. apply (marshal_iff H vcall OK m _ w _ opts o b None r Hr Ho).
  apply encodes_native; [exact OK | reflexivity | discriminate | exact I|]. intros rec n. cbn [vnative]. rewrite Hv. cbn [encode_raw_message]. rewrite Hn. reflexivity.
Qed.

(** ** Bytes that are not JSON *)
(** A raw message is not checked, so the text is given for every sequence of
    bytes.  A place in it is outside of strings, inside of one, or inside of one
    after a backslash. *)
Inductive place := Outside | Inside | Escaped.
Definition after_sep (q : place) : place := match q with Escaped => Inside | _ => q end.
Definition kept_byte (html : bool) (c : Z) (s : bytes) : Prop := (html = true -> ~ In c [60; 62; 38]) /\ ~ sep_first (c :: s).

Inductive strip (html : bool) : place -> bytes -> bytes -> Prop :=
| st_end q : strip html q [] []
| st_less q s y : html = true -> strip html q s y -> strip html q (lit "<" ++ s) (lit "\u003c" ++ y)
| st_greater q s y : html = true -> strip html q s y -> strip html q (lit ">" ++ s) (lit "\u003e" ++ y)
| st_ampersand q s y : html = true -> strip html q s y -> strip html q (lit "&" ++ s) (lit "\u0026" ++ y)
| st_line q s y : strip html (after_sep q) s y -> strip html q (0xE2 :: 0x80 :: 0xA8 :: s) (lit "\u2028" ++ y)
| st_paragraph q s y : strip html (after_sep q) s y -> strip html q (0xE2 :: 0x80 :: 0xA9 :: s) (lit "\u2029" ++ y)
| st_space c s y : In c [9; 10; 13; 32] -> strip html Outside s y -> strip html Outside (c :: s) y
| st_open s y : strip html Inside s y -> strip html Outside (34 :: s) (34 :: y)
| st_token c s y : kept_byte html c s -> ~ In c [9; 10; 13; 32; 34] -> strip html Outside s y -> strip html Outside (c :: s) (c :: y)
| st_backslash s y : strip html Escaped s y -> strip html Inside (92 :: s) (92 :: y)
| st_close s y : strip html Outside s y -> strip html Inside (34 :: s) (34 :: y)
| st_other c s y : kept_byte html c s -> c <> 34 -> c <> 92 -> strip html Inside s y -> strip html Inside (c :: s) (c :: y)
| st_escaped c s y : kept_byte html c s -> strip html Inside s y -> strip html Escaped (c :: s) (c :: y).

Definition in_string (q : place) : bool := match q with Outside => false | _ => true end.
Definition after_backslash (q : place) : bool := match q with Escaped => true | _ => false end.

Lemma kept_html html c s : kept_byte html c s -> html && is_html c = false.
Proof. intros [K _]. destruct html; [|reflexivity]. specialize (K eq_refl). cbn [In andb] in *. unfold is_html. clear -K. lia. Qed.
Lemma kept_sep html c s : bytes_ok (c :: s) -> kept_byte html c s -> sep3 (c :: s) = false.
Proof. intros Hb [_ K]. destruct (sep3 (c :: s)) eqn:E; [|reflexivity]. exfalso. apply K. apply sep3_first; assumption. Qed.
Lemma space_in c : is_space c = true <-> In c [9; 10; 13; 32].
Proof. unfold is_space. cbn [In]. lia. Qed.

Lemma strip_cs html q s y : strip html q s y -> bytes_ok s -> y = cs html (in_string q) (after_backslash q) s.
Proof.
  assert (A : forall h k, k < 128 -> In k [9; 10; 13; 32; 34; 92] -> forall t, h && is_html k = false /\ sep3 (k :: t) = false).
  { intros h k _ K t. split.
    - cbn [In] in K. assert (is_html k = false) as -> by (unfold is_html; lia). apply andb_false_r.
    - cbn [sep3]. destruct t as [|b1 [|b2 t]]; try reflexivity. replace (k =? 226) with false by (cbn [In] in K; lia). reflexivity. }
  induction 1 as [q|q s y Hh _ IH|q s y Hh _ IH|q s y Hh _ IH|q s y _ IH|q s y _ IH|c s y Hc _ IH|s y _ IH|c s y K N _ IH|s y _ IH|s y _ IH|c s y K N1 N2 _ IH|c s y K _ IH]; intros Hb.
  - reflexivity.
  - subst html. rewrite IH by (apply bytes_ok_app in Hb; apply Hb). reflexivity.
  - subst html. rewrite IH by (apply bytes_ok_app in Hb; apply Hb). reflexivity.
  - subst html. rewrite IH by (apply bytes_ok_app in Hb; apply Hb). reflexivity.
  - rewrite !bytes_ok_cons in Hb. rewrite IH by apply Hb. rewrite cs_cons. replace (html && is_html 226) with false by (destruct html; reflexivity).
    change (sep3 (226 :: 128 :: 168 :: s)) with true. destruct q; reflexivity.
  - rewrite !bytes_ok_cons in Hb. rewrite IH by apply Hb. rewrite cs_cons. replace (html && is_html 226) with false by (destruct html; reflexivity).
    change (sep3 (226 :: 128 :: 169 :: s)) with true. destruct q; reflexivity.
  - rewrite bytes_ok_cons in Hb. rewrite IH by apply Hb. rewrite cs_cons. destruct (A html c ltac:(cbn [In] in Hc; lia) ltac:(cbn [In] in *; lia) s) as [-> ->].
    unfold cs_next. cbn [in_string after_backslash negb]. replace (c =? 34) with false by (cbn [In] in Hc; lia). rewrite (proj2 (space_in c) Hc). reflexivity.
  - rewrite bytes_ok_cons in Hb. rewrite IH by apply Hb. rewrite cs_cons. destruct (A html 34 ltac:(lia) ltac:(cbn [In]; lia) s) as [-> ->]. reflexivity.
  - rewrite cs_cons, (kept_html html c s K), (kept_sep html c s Hb K). rewrite bytes_ok_cons in Hb. rewrite IH by apply Hb.
    unfold cs_next. cbn [in_string after_backslash negb]. replace (c =? 34) with false by (cbn [In] in N; lia). replace (is_space c) with false by (cbn [In] in N; unfold is_space; lia). reflexivity.
  - rewrite bytes_ok_cons in Hb. rewrite IH by apply Hb. rewrite cs_cons. destruct (A html 92 ltac:(lia) ltac:(cbn [In]; lia) s) as [-> ->]. reflexivity.
  - rewrite bytes_ok_cons in Hb. rewrite IH by apply Hb. rewrite cs_cons. destruct (A html 34 ltac:(lia) ltac:(cbn [In]; lia) s) as [-> ->]. reflexivity.
  - rewrite cs_cons, (kept_html html c s K), (kept_sep html c s Hb K). rewrite bytes_ok_cons in Hb. rewrite IH by apply Hb.
    unfold cs_next. cbn [in_string after_backslash negb]. replace (c =? 34) with false by lia. replace (c =? 92) with false by lia. reflexivity.
  - rewrite cs_cons, (kept_html html c s K), (kept_sep html c s Hb K). rewrite bytes_ok_cons in Hb. rewrite IH by apply Hb. reflexivity.
Qed.

Lemma strip_total html : forall n s q, (length s <= n)%nat -> bytes_ok s -> exists y, strip html q s y.
Proof.
  induction n as [|n IH]; intros s q L Hb; [destruct s; [exists []; constructor | cbn [length] in L; lia]|].
  destruct s as [|c s]; [exists []; constructor|]. cbn [length] in L.
  assert (R : forall q', exists y, strip html q' s y) by (intros q'; apply IH; [lia | rewrite bytes_ok_cons in Hb; apply Hb]).
  assert (D : html = true /\ In c [60; 62; 38] \/ (html = true -> ~ In c [60; 62; 38])).
  { destruct html; [|right; discriminate]. destruct (In_dec Z.eq_dec c [60; 62; 38]); [left | right; intros _]; auto. }
  destruct D as [(Hh & D)|D].
  { destruct (R q) as [y Hy]. cbn [In] in D. destruct D as [<- | [<- | [<- | []]]]; eexists; [apply (st_less html q s y) | apply (st_greater html q s y) | apply (st_ampersand html q s y)]; assumption. }
  destruct (sep3 (c :: s)) eqn:Es.
  { apply (sep3_first (c :: s) Hb) in Es. destruct Es as (t & [E | E]); injection E as -> ->; rewrite !bytes_ok_cons in Hb; cbn [length] in L;
      (destruct (IH t (after_sep q)) as [y Hy]; [lia | apply Hb|]); eexists; [apply st_line | apply st_paragraph]; exact Hy. }
  assert (K : kept_byte html c s) by (split; [exact D|]; intros F; apply (sep3_first (c :: s) Hb) in F; congruence).
  destruct q.
  - destruct (Z.eq_dec c 34) as [-> | N]; [destruct (R Inside) as [y Hy]; eexists; apply st_open; exact Hy|].
    destruct (In_dec Z.eq_dec c [9; 10; 13; 32]) as [I|I]; destruct (R Outside) as [y Hy]; eexists; [apply st_space; eassumption | apply st_token; try eassumption].
    cbn [In] in *. clear -N I. lia.
  - destruct (Z.eq_dec c 34) as [-> | N]; [destruct (R Outside) as [y Hy]; eexists; apply st_close; exact Hy|].
    destruct (Z.eq_dec c 92) as [-> | N2]; [destruct (R Escaped) as [y Hy]; eexists; apply st_backslash; exact Hy|].
    destruct (R Inside) as [y Hy]. eexists. apply st_other; eassumption.
  - destruct (R Inside) as [y Hy]. eexists. apply st_escaped; eassumption.
Qed.
Lemma strip_iff html q s y : bytes_ok s -> (strip html q s y <-> y = cs html (in_string q) (after_backslash q) s).
Proof.
  intros Hb. split; [intros C; exact (strip_cs html q s y C Hb)|]. intros ->. destruct (strip_total html (length s) s q (Nat.le_refl _) Hb) as [y C].
  rewrite <- (strip_cs html q s y C Hb). exact C.
Qed.

(** The text of any raw message. *)
Theorem C59_any H vcall m w vs b opts o r : host_ok H vcall -> holds H m TRawMessage w (VSlice vs) -> vbytes vs = Some b ->
  call_opts opts = Some o -> has (o_flags o) noCompact = false ->
  (marshal_returns H m (Some (TRawMessage, w)) opts r <-> exists out, r = MOk out /\ strip (negb (has (o_flags o) noHTMLEscaping)) Outside b out).
Proof.
  intros OK Hr Hv Ho Hn.
  destruct (holds_repr H vcall OK m _ w _ Hr) as [l Hl]. assert (Hb : bytes_ok b) by (apply (vbytes_ok H m l TRawMessage (TInt KUint8) vs b); auto).
  assert (E : encodes H vcall o TRawMessage (VSlice vs) (cs (negb (has (o_flags o) noHTMLEscaping)) false false b) None).
  { apply encodes_native; [exact OK | reflexivity | discriminate | exact I|]. intros rec n. cbn [vnative]. rewrite Hv. cbn [encode_raw_message]. rewrite Hn, appendCompactJSON_spec by exact Hb. reflexivity. }
  rewrite (marshal_iff H vcall OK m _ w _ opts o _ None r Hr Ho E). split.
  - intros ->. eexists. split; [reflexivity|]. apply strip_iff; [exact Hb | reflexivity].
  - intros (out & -> & C). apply strip_iff in C; [|exact Hb]. rewrite C. reflexivity.
Qed.
(** There is exactly one, for every sequence of bytes. *)
Theorem C59_any_one html b : bytes_ok b -> exists out, strip html Outside b out /\ forall out', strip html Outside b out' -> out' = out.
Proof.
  intros Hb. exists (cs html false false b). split; [apply strip_iff; [exact Hb | reflexivity]|]. intros out' C. apply strip_iff in C; [exact C | exact Hb].
Qed.

(** ** Instances *)
(** A solidus written with a backslash, an escaped letter, upper-case digits
    and a number in an unusual form are kept as they are. *)
Definition odd : bytes := lit "[ ""\/\u0041\u003C<"" ,1E+05 ] ".
Definition odd_out : bytes := lit "[""\/\u0041\u003C\u003c"",1E+05]".
Lemma odd_valid : exists j, json_text false j odd.
Proof. destruct (parse_strict odd) as [j|] eqn:E; [|vm_compute in E; discriminate]. exists j. apply parse_strict_correct; [apply lit_bytes | exact E]. Qed.
Example C59_ex : compact_text true odd odd_out.
Proof.
  destruct odd_valid as [j Hj]. destruct (proj1 (C59_raw_message exH ex_vcall _ _ _ odd false j [] default_opts (MOk odd_out) ex_ok (raw_holds odd (lit_bytes _)) (vbytes_map _) Hj eq_refl eq_refl)) as (out & E & C).
  - exists 3%nat. split; [vm_compute; reflexivity | discriminate].
  - injection E as <-. exact C.
Qed.
(** Nothing else is a compaction of it. *)
Example C59_ex_other : ~ compact_text true odd (lit "[""/A\u003c\u003c"",100000]").
Proof.
  intros C. destruct odd_valid as [j Hj]. assert (X := compact_text_det true false j odd _ _ Hj (lit_bytes _) C C59_ex). vm_compute in X. discriminate.
Qed.
Example C59_ex_method : marshal_returns jsonH (cell_mem (CInt KInt 5)) (Some (TNamed 0, 100)) [] (MOk spaced_out) /\ compact_text true spaced spaced_out.
Proof.
  destruct spaced_valid as [j Hj]. split; [apply C07_ex_method|].
  destruct (proj1 (C59_marshal_json jsonH (constV jsonH_result) (cell_mem (CInt KInt 5)) (TNamed 0) 100 (VInt 5) spaced false j [] default_opts (MOk spaced_out) jsonH_ok (jsonH_holds 0 ltac:(lia)) eq_refl eq_refl
    (or_intror (jsonH_not_direct 0 ltac:(lia))) eq_refl Hj eq_refl eq_refl) (proj1 C07_ex_method)) as (out & E & C). injection E as <-. exact C.
Qed.
Example C59_ex_copied : marshal_returns exH (bytes_mem odd) (Some (TRawMessage, 100)) [Some ONoCompact] (MOk odd).
Proof. apply (C59_copied exH ex_vcall _ _ _ odd [Some ONoCompact] _ _ ex_ok (raw_holds odd (lit_bytes _)) (vbytes_map _) eq_refl); reflexivity. Qed.

(** A form feed is kept, a string need not be closed, and a quotation mark after
    a backslash does not close it; two numbers become one. *)
Definition broken : bytes := [12; 32] ++ lit "1 2"" \"" <" ++ [9].
Definition broken_out : bytes := [12] ++ lit "12"" \"" \u003c" ++ [9].
Example C59_ex_any : marshal_returns exH (bytes_mem broken) (Some (TRawMessage, 100)) [] (MOk broken_out) /\ strip true Outside broken broken_out.
Proof.
  assert (Hb : bytes_ok broken) by (unfold broken; apply bytes_ok_app; split; [repeat constructor; discriminate|]; apply bytes_ok_app; split; [apply lit_bytes | repeat constructor; discriminate]).
  assert (M : marshal_returns exH (bytes_mem broken) (Some (TRawMessage, 100)) [] (MOk broken_out)) by (exists 3%nat; split; [vm_compute; reflexivity | discriminate]).
  split; [exact M|]. destruct (proj1 (C59_any exH ex_vcall _ _ _ broken [] default_opts (MOk broken_out) ex_ok (raw_holds broken Hb) (vbytes_map _) eq_refl eq_refl) M) as (out & E & C).
  assert (out = broken_out) as -> by congruence. exact C.
Qed.

(** A raw message that is not JSON may turn into one: the space between two
    numbers is left out. *)
Theorem C59_joins : exists b out, ~ (exists j, json_text true j b) /\ (exists j, json_text false j out) /\
  marshal_returns exH (bytes_mem b) (Some (TRawMessage, 100)) [] (MOk out).
Proof.
  exists (lit "1 2"), (lit "12"). split; [|split].
  - intros X. apply (proj2 (json_valid_correct (lit "1 2") (lit_bytes _))) in X. vm_compute in X. discriminate.
  - destruct (parse_strict (lit "12")) as [j|] eqn:E; [|vm_compute in E; discriminate]. exists j. apply parse_strict_correct; [apply lit_bytes | exact E].
  - exists 3%nat. split; [vm_compute; reflexivity | discriminate].
Qed.

Print Assumptions C59_raw_message.
Print Assumptions C59_marshal_json.
Print Assumptions C59_one_text.
Print Assumptions C59_copied.
Print Assumptions C59_any.
Print Assumptions C59_any_one.
Print Assumptions C59_joins.
