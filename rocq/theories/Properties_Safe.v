(** C52: whole documents are safe to embed.  C53: they pass through
    json.RawMessage unchanged. *)
From Coq Require Import Permutation.
From Verif Require Import Base Utf8 JsonSpec OptionsModel EscapeModel EscapeProof NumberProof JsonParse CompactModel CompactProof IntModel TypesModel TypesFacts TagsModel TagsProof CalendarSpec TimeModel TimeProof FloatModel FloatProof LeafModel LeafProof
  MemModel FieldsModel FieldsProof InstrModel ExecModel ValueModel ExecMono ExecLeaf ExecProof HostFacts VencFacts MarshalThm DocSpec EntriesFacts DocLeaf PartFacts DocProof SafeProof ApiFacts PartsThm ShapeThm CallFacts
  TextThm ExampleHost ExampleConst ExampleRead Properties_Options Properties_Strings Properties_Numbers Properties_Members Properties_Maps Properties_Api.

(** The texts of a node that user code, or the user, supplies: [json] when the
    text is compacted and escaped, else it is copied as it is. *)
Definition supplied (H : host) (vcall : mkind -> typ -> val -> option Z -> bytes + Z) (o : encOpts) (x : node) (json : bool) (s : bytes) : Prop :=
  let '(t, ca, q, v) := x in
  let compacts := negb (has (o_flags o) noCompact) in
  match t, v with
  | TTime, VTime g => json = false /\ has (o_flags o) unixTime = false /\ o_timeLayout o <> layout_RFC3339 /\ o_timeLayout o <> layout_RFC3339Nano /\ s = h_fmt H g (o_timeLayout o)
  | TNumber, VStr n => json = false /\ has (o_flags o) noNumberValidation = true /\ s = n
  | TRawMessage, VSlice vs => json = compacts /\ vbytes vs = Some s
  | TDuration, _ | TRawMessage, _ | TNumber, _ | TTime, _ | TSyncMap, _ => False
  | _, _ =>
    exists k hp td w, method_of H t ca = Some (k, hp) /\ receiver H t hp v td w /\ vcall k td w (ctx_of o k) = inl s /\
      json = match k with MJson => compacts | _ => false end
  end.

Lemma outside_supplied H vcall o x s : outside H vcall o x s ->
  supplied H vcall o x false s \/ exists b, supplied H vcall o x true b /\ s = cs (negb (has (o_flags o) noHTMLEscaping)) false false b.
Proof.
  destruct x as [[[t ca] q] v]. destruct (native t) eqn:En.
  - destruct t; try discriminate En; destruct v; cbn [outside supplied]; try contradiction.
    + intros (A & B & C & D). left. auto.
    + intros (A & ->). left. auto.
    + intros (b & Hb & ->). unfold given. destruct (has (o_flags o) noCompact); cbn [negb]; [left; auto | right; eauto].
  - assert (G : (exists k hp td w b, method_of H t ca = Some (k, hp) /\ receiver H t hp v td w /\ vcall k td w (ctx_of o k) = inl b /\
        s = match k with MJson => given o b | _ => b end /\ (k = MJson -> has (o_flags o) noCompact = false -> exists j, json_text true j b)) ->
      (exists k hp td w, method_of H t ca = Some (k, hp) /\ receiver H t hp v td w /\ vcall k td w (ctx_of o k) = inl s /\
        false = match k with MJson => negb (has (o_flags o) noCompact) | _ => false end) \/
      exists b, (exists k hp td w, method_of H t ca = Some (k, hp) /\ receiver H t hp v td w /\ vcall k td w (ctx_of o k) = inl b /\
        true = match k with MJson => negb (has (o_flags o) noCompact) | _ => false end) /\ s = cs (negb (has (o_flags o) noHTMLEscaping)) false false b).
    { intros (k & hp & td & w & b & A & B & C & -> & _). unfold given. destruct k; try (left; exists MCtx, hp, td, w; auto; fail); try (left; do 4 eexists; repeat split; eauto; fail).
      destruct (has (o_flags o) noCompact) eqn:Ec; cbn [negb]; [left; exists MJson, hp, td, w; auto | right; exists b; split; [exists MJson, hp, td, w; auto | reflexivity]]. }
    destruct t; try discriminate En; exact G.
Qed.

Section Call.
  Variable H : host.
  Variable vcall : mkind -> typ -> val -> option Z -> bytes + Z.
  Hypothesis OK : host_ok H vcall.
  Hypothesis SH : shortest_ok (h_shortest H).
  Hypothesis SO : sort_ok H.

  Lemma call_text m t w v opts o out (P : bytes -> Prop) : call H m t w v opts o -> marshal_returns H m (Some (t, w)) opts (MOk out) ->
    (forall a b, P a -> P b -> P (a ++ b)) -> (forall s, safe_text s -> P s) -> (forall s, bytes_ok s -> P (escaped o s)) ->
    (forall name rs, key_name name rs -> Forall (fun r => r <> 0x2028 /\ r <> 0x2029) rs -> P (key_text o name)) ->
    (forall y s, part H o (t, is_ptr H t, false, v) y -> outside H vcall o y s -> P s) -> P out.
  Proof.
    intros C R P1 P2 P3 P4 Hg. apply (call_ok H vcall OK m t w v opts o C) in R. apply encodes_inv in R. destruct R as [n Hn].
    eapply (venc_text H vcall o P P1 P2 P3 P4 OK SH SO m n); [|exact Hg | exact Hn]. apply (call_held H vcall OK m t w v opts o C).
  Qed.
End Call.

(** ** No HTML characters *)
Definition no_html (s : bytes) : Prop := ~ In 60 s /\ ~ In 62 s /\ ~ In 38 s.

Lemma no_html_app a b : no_html a -> no_html b -> no_html (a ++ b).
Proof. unfold no_html. rewrite !in_app_iff. tauto. Qed.
Lemma no_html_runes s rs : utf8_string s rs -> Forall (fun r => r <> 60 /\ r <> 62 /\ r <> 38) rs -> no_html s.
Proof.
  intros Hu Hf. rewrite Forall_forall in Hf. repeat split; (apply (utf8_string_no_byte s rs); [lia | exact Hu | intros Hi; specialize (Hf _ Hi); lia]).
Qed.
Lemma no_html_bytes s : Forall (fun c => c <> 60 /\ c <> 62 /\ c <> 38) s -> no_html s.
Proof. intros Hf. rewrite Forall_forall in Hf. repeat split; intros Hi; specialize (Hf _ Hi); lia. Qed.
Lemma no_html_clean s : clean true s -> no_html s.
Proof. intros (rs & Hu & Hf). apply (no_html_runes s rs Hu). eapply Forall_impl; [|exact Hf]. intros r (_ & _ & _ & Hh). exact (Hh eq_refl). Qed.

Lemma html_esc_low c : is_html c = true -> Forall (fun x => x <> 60 /\ x <> 62 /\ x <> 38) (html_esc c).
Proof. unfold is_html. intros Hc. assert (c = 60 \/ c = 62 \/ c = 38) as [-> | [-> | ->]] by lia; vm_compute; repeat constructor; discriminate. Qed.
Lemma sep_esc_low b : Z.ldiff b 1 = 0xA8 -> Forall (fun x => x <> 60 /\ x <> 62 /\ x <> 38) (sep_esc b).
Proof.
  intros Hb. assert (B : b = 0xA8 \/ b = 0xA9).
  { assert (X := Z.lor_ldiff_and b 1). rewrite Hb in X. assert (Y : Z.land b 1 = 0 \/ Z.land b 1 = 1) by (change (Z.land b 1) with (Z.land b (Z.ones 1)); rewrite Z.land_ones by lia; change (2 ^ 1) with 2; lia).
    destruct Y as [Y|Y]; rewrite Y in X; [left | right]; rewrite <- X; reflexivity. }
  destruct B as [-> | ->]; vm_compute; repeat constructor; discriminate.
Qed.

Lemma cs_no_html inS skip s : no_html (cs true inS skip s).
Proof.
  remember (length s) as n eqn:Hn. assert (Hl : (length s <= n)%nat) by lia. clear Hn. revert s inS skip Hl.
  induction n as [|n IH]; intros s inS skip Hl; (destruct s as [|c s]; [apply no_html_bytes; constructor|]); cbn [length] in Hl; [lia|].
  rewrite cs_cons. cbn [andb]. destruct (is_html c) eqn:Eh; [apply no_html_app; [apply no_html_bytes, html_esc_low, Eh | apply IH; lia]|].
  destruct (sep3 (c :: s)) eqn:Es.
  - apply no_html_app; [|apply IH; rewrite skipn_length; cbn [length]; lia]. destruct s as [|b1 [|b2 s3]]; try discriminate Es. cbn [sep3] in Es. cbn [nth].
    apply no_html_bytes, sep_esc_low. lia.
  - assert (C : forall i k, no_html (c :: cs true i k s)).
    { intros i k. change (c :: cs true i k s) with ([c] ++ cs true i k s). apply no_html_app; [|apply IH; lia]. apply no_html_bytes. constructor; [|constructor]. unfold is_html in Eh. lia. }
    unfold cs_next. destruct (negb inS); [destruct (c =? 34); [apply C|]; destruct (is_space c); [apply IH; lia | apply C]|].
    destruct skip; [apply C|]. destruct (c =? 92); [apply C|]. destruct (c =? 34); apply C.
Qed.

Lemma escaped_no_html o s : bytes_ok s -> has (o_flags o) noStringEscaping = false -> has (o_flags o) noHTMLEscaping = false -> no_html (escaped o s).
Proof.
  intros Hb H1 H2. destruct (segments_total s Hb) as (segs & Hs). rewrite (escaped_segments o s segs Hb Hs H1), H2. generalize (has (o_flags o) noUTF8Coercion). intros nc.
  assert (G : Forall (fun u => match u with inl r => scalar r | inr b => 0x80 <= b end) segs).
  { clear -Hs Hb. induction Hs as [|r s us Hr Hs IH|b s us Hn Hs IH]; [constructor | constructor; [exact Hr | apply IH; apply Forall_app in Hb; tauto]|].
    inversion Hb as [|? ? Hb1 Hb2]; subst. constructor; [|apply IH, Hb2]. destruct (Z_lt_le_dec b 0x80) as [L|L]; [|exact L]. exfalso.
    apply (Hn b s); [unfold scalar, is_byte in *; lia|]. rewrite utf8_ascii by (unfold is_byte in Hb1; lia). reflexivity. }
  clear Hs Hb. induction G as [|u us Hu _ IH]; [apply no_html_bytes; constructor|]. cbn [flat_map]. apply no_html_app; [|exact IH]. destruct u as [r|b]; cbn [esc_seg].
  - destruct (r <? 0x80) eqn:E.
    + assert (Hr : 0 <= r < 0x80) by (unfold scalar in Hu; lia). destruct (EscapeModel.plain false r) eqn:Ep.
      * apply no_html_bytes. constructor; [|constructor]. unfold EscapeModel.plain in Ep. cbn [orb] in Ep. lia.
      * apply no_html_bytes. eapply Forall_impl; [|apply esc_ascii_low, Hr]. cbn. intros. lia.
    + assert (U : no_html (utf8 r)) by (apply no_html_bytes; eapply Forall_impl; [|apply (utf8_high r Hu); lia]; cbn; intros; lia).
      destruct nc; [exact U|]. destruct ((r =? 0x2028) || (r =? 0x2029)) eqn:E2; [|exact U].
      assert (r = 0x2028 \/ r = 0x2029) as [-> | ->] by lia; apply no_html_bytes; vm_compute; repeat constructor; discriminate.
  - destruct nc; [|apply no_html_bytes; vm_compute; repeat constructor; discriminate]. apply no_html_bytes. constructor; [lia | constructor].
Qed.

(** Unless NoHTMLEscaping or NoStringEscaping is given, a document contains
    <, > and & only where a text that is copied as it is contains them: the
    results of AppendJSON, AppendJSONContext and MarshalText, a custom time
    layout, unchecked numbers, and JSON under NoCompact.  Raw messages and the
    results of MarshalJSON may be any bytes. *)
Theorem C52_html H vcall m t w v opts o out : host_ok H vcall -> shortest_ok (h_shortest H) -> sort_ok H ->
  has (o_flags o) noStringEscaping = false -> has (o_flags o) noHTMLEscaping = false ->
  call H m t w v opts o ->
  (forall y s, part H o (t, is_ptr H t, false, v) y -> supplied H vcall o y false s -> no_html s) ->
  marshal_returns H m (Some (t, w)) opts (MOk out) -> no_html out.
Proof.
  intros OK SH SO F1 F2 C Hs R. eapply (call_text H vcall OK SH SO m t w v opts o out no_html C R).
  - exact no_html_app.
  - intros s (rs & Hu & Hf). apply (no_html_runes s rs Hu). eapply Forall_impl; [|exact Hf]. unfold safe_rune. cbn. tauto.
  - intros s Hb. apply escaped_no_html; assumption.
  - intros name rs (Hn & Hu & Hk) _. unfold key_text. rewrite F2. unfold key_esc. change (34 :: html_escape name ++ [34; 58]) with ([34] ++ html_escape name ++ [34; 58]).
    apply no_html_app; [apply no_html_bytes; repeat constructor; discriminate|]. apply no_html_app; [|apply no_html_bytes; repeat constructor; discriminate].
    apply no_html_clean. eapply key_esc_jchars; eauto.
  - intros y s Hp Ho. apply outside_supplied in Ho. destruct Ho as [Ho|(b & Ho & ->)]; [eapply Hs; eauto|]. rewrite F2. apply cs_no_html.
Qed.

(** ** Valid UTF-8 without U+2028 and U+2029 *)
Definition well_formed (s : bytes) : Prop := exists rs, utf8_string s rs.
Definition embeddable (s : bytes) : Prop := exists rs, utf8_string s rs /\ Forall (fun r => r <> 0x2028 /\ r <> 0x2029) rs.

(** The bytes of the separators do not occur in such a text. *)
Definition separator_free (s : bytes) : Prop := forall a c b, c = 0xA8 \/ c = 0xA9 -> s <> a ++ [0xE2; 0x80; c] ++ b.
Lemma embeddable_separators s : embeddable s -> separator_free s.
Proof.
  intros (rs & Hu & Hf) a c b Hc Es. rewrite Forall_forall in Hf. destruct Hc as [-> | ->].
  - destruct (Hf 0x2028) as [X _]; [|apply X; reflexivity]. apply (utf8_sync s rs); [exact Hu | unfold scalar; lia | exists a, b; exact Es].
  - destruct (Hf 0x2029) as [_ X]; [|apply X; reflexivity]. apply (utf8_sync s rs); [exact Hu | unfold scalar; lia | exists a, b; exact Es].
Qed.

Lemma embeddable_clean s : embeddable s <-> clean false s.
Proof.
  split; intros (rs & Hu & Hf); exists rs; (split; [exact Hu|]).
  - clear -Hu Hf. induction Hu as [|r s rs Hr Hu IH]; [constructor|]. inversion Hf as [|? ? [A B] Hf']; subst. constructor; [|apply IH, Hf'].
    split; [exact Hr|]. split; [exact A|]. split; [exact B | discriminate].
  - eapply Forall_impl; [|exact Hf]. intros r (_ & A & B & _). auto.
Qed.

Lemma cs_high esc inS h s : Forall (fun b => 0x80 <= b < 0xC0) h -> forall skip, exists skip', cs esc inS skip (h ++ s) = h ++ cs esc inS skip' s.
Proof.
  induction 1 as [|b h Hb Hf IH]; intros skip; [exists skip; reflexivity|]. change ((b :: h) ++ s) with (b :: h ++ s). rewrite (cs_cons esc inS skip b (h ++ s)).
  replace (esc && is_html b) with false by (unfold is_html; destruct esc; cbn [andb]; lia).
  assert (sep3 (b :: h ++ s) = false) as -> by (destruct (h ++ s) as [|b1 [|b2 s3]]; cbn [sep3]; try reflexivity; replace (b =? 0xE2) with false by lia; reflexivity).
  unfold cs_next, is_space. replace (b =? 34) with false by lia. replace ((b =? 32) || (b =? 10) || (b =? 13) || (b =? 9)) with false by lia. replace (b =? 92) with false by lia.
  destruct (IH skip) as [k1 E1]. destruct (IH false) as [k2 E2]. destruct (negb inS); [exists k1; rewrite E1; reflexivity|]. destruct skip; [exists k2; rewrite E2; reflexivity | exists k1; rewrite E1; reflexivity].
Qed.

Lemma cs_clean esc s rs : utf8_string s rs -> forall inS skip, clean esc (cs esc inS skip s).
Proof.
  induction 1 as [|r s rs Hr Hu IH]; intros inS skip; [apply clean_nil|]. destruct (utf8_head r Hr) as (b & t & E & Hb & Ht).
  destruct (Z_lt_le_dec r 0x80) as [L|L].
  - assert (R0 : 0 <= r < 0x80) by (unfold scalar in Hr; lia). rewrite utf8_ascii by exact R0. cbn [app]. rewrite cs_cons.
    assert (sep3 (r :: s) = false) as -> by (destruct s as [|b1 [|b2 s3]]; cbn [sep3]; try reflexivity; replace (r =? 0xE2) with false by lia; reflexivity).
    destruct (esc && is_html r) eqn:Eh.
    + apply andb_prop in Eh. destruct Eh as [-> Eh]. apply clean_app; [|apply IH]. apply clean_asciis.
      unfold is_html in Eh. assert (r = 60 \/ r = 62 \/ r = 38) as [-> | [-> | ->]] by lia; vm_compute; repeat constructor; discriminate.
    + assert (C : forall i k, clean esc (r :: cs esc i k s)).
      { intros i k. change (r :: cs esc i k s) with ([r] ++ cs esc i k s). apply clean_app; [|apply IH]. exists [r]. split.
        - assert (U := utf8_string_single r Hr). rewrite utf8_ascii in U by exact R0. exact U.
        - constructor; [|constructor]. split; [exact Hr|]. split; [lia|]. split; [lia|]. intros ->. cbn [andb] in Eh. unfold is_html in Eh. lia. }
      unfold cs_next. destruct (negb inS); [destruct (r =? 34); [apply C|]; destruct (is_space r); [apply IH | apply C]|].
      destruct skip; [apply C|]. destruct (r =? 92); [apply C|]. destruct (r =? 34); apply C.
  - destruct ((r =? 0x2028) || (r =? 0x2029)) eqn:Es.
    + assert (R : r = 0x2028 \/ r = 0x2029) by lia. destruct R as [-> | ->].
      * change (utf8 0x2028 ++ s) with (0xE2 :: 0x80 :: 0xA8 :: s). rewrite cs_cons. replace (esc && is_html 0xE2) with false by (destruct esc; reflexivity).
        change (sep3 (0xE2 :: 0x80 :: 0xA8 :: s)) with true. cbn [nth skipn]. apply clean_app; [|apply IH]. apply clean_asciis. vm_compute. repeat constructor; discriminate.
      * change (utf8 0x2029 ++ s) with (0xE2 :: 0x80 :: 0xA9 :: s). rewrite cs_cons. replace (esc && is_html 0xE2) with false by (destruct esc; reflexivity).
        change (sep3 (0xE2 :: 0x80 :: 0xA9 :: s)) with true. cbn [nth skipn]. apply clean_app; [|apply IH]. apply clean_asciis. vm_compute. repeat constructor; discriminate.
    + assert (Sp : sep3 (utf8 r ++ s) = false) by (destruct (utf8_sep r Hr s) as [X|(b' & _ & X)]; congruence).
      assert (Hb' : 0xC0 <= b) by (pose proof (utf8_high r Hr L) as F; rewrite E in F; inversion F; subst; destruct Hb; lia).
      rewrite E in Sp |- *. cbn [app] in Sp |- *. rewrite cs_cons, Sp. replace (esc && is_html b) with false by (unfold is_html; destruct esc; cbn [andb]; lia).
      assert (C : forall i k, clean esc (b :: cs esc i k (t ++ s))).
      { intros i k. destruct (cs_high esc i t s Ht k) as [k' ->]. change (b :: t ++ cs esc i k' s) with ((b :: t) ++ cs esc i k' s). rewrite <- E. apply clean_app; [|apply IH].
        exists [r]. split; [apply utf8_string_single, Hr|]. constructor; [|constructor]. split; [exact Hr|]. split; [lia|]. split; [lia|]. lia. }
      unfold cs_next, is_space. replace (b =? 34) with false by lia. replace ((b =? 32) || (b =? 10) || (b =? 13) || (b =? 9)) with false by lia. replace (b =? 92) with false by lia.
      destruct (negb inS); [apply C|]. destruct skip; apply C.
Qed.

(** Unless NoStringEscaping or NoUTF8Coercion is given, a document is valid
    UTF-8 and free of the two separators, which JavaScript does not allow in
    strings, when the supplied texts that are copied are and the JSON texts that
    are compacted are valid UTF-8. *)
Theorem C52_utf8 H vcall m t w v opts o out : host_ok H vcall -> shortest_ok (h_shortest H) -> sort_ok H -> esc_on o ->
  call H m t w v opts o ->
  (forall y s, part H o (t, is_ptr H t, false, v) y -> supplied H vcall o y false s -> embeddable s) ->
  (forall y s, part H o (t, is_ptr H t, false, v) y -> supplied H vcall o y true s -> well_formed s) ->
  marshal_returns H m (Some (t, w)) opts (MOk out) -> embeddable out /\ separator_free out.
Proof.
  intros OK SH SO [F1 F2] C Hs Hj R. assert (G : embeddable out); [|split; [exact G | apply embeddable_separators, G]].
  eapply (call_text H vcall OK SH SO m t w v opts o out embeddable C R).
  - intros a b. rewrite !embeddable_clean. apply clean_app.
  - intros s (rs & Hu & Hf). exists rs. split; [exact Hu|]. eapply Forall_impl; [|exact Hf]. unfold safe_rune. cbn. tauto.
  - intros s Hb. destruct (segments_total s Hb) as (segs & Hsg). rewrite (escaped_segments o s segs Hb Hsg F1), F2.
    destruct (escaped_runes (has (o_flags o) noHTMLEscaping) s segs Hb Hsg) as (rs & Hr & Ho). exists rs. split; [exact Hr|].
    eapply Forall_impl; [|exact Ho]. intros r (_ & _ & _ & X). exact (X eq_refl).
  - intros name rs (Hn & Hu & Hk) Hsp. unfold key_text. destruct (has (o_flags o) noHTMLEscaping).
    + unfold key_raw. change (34 :: name ++ [34; 58]) with ([34] ++ name ++ [34; 58]). apply embeddable_clean. apply clean_app; [apply clean_ascii; [lia | reflexivity]|].
      apply clean_app; [apply embeddable_clean; exists rs; auto|]. apply clean_asciis. repeat constructor; lia.
    + unfold key_esc. change (34 :: html_escape name ++ [34; 58]) with ([34] ++ html_escape name ++ [34; 58]). apply embeddable_clean. apply clean_app; [apply clean_ascii; [lia | reflexivity]|].
      apply clean_app; [|apply clean_asciis; repeat constructor; lia]. destruct (key_esc_jchars _ _ Hu Hk) as [_ (rs' & U' & F')]. exists rs'. split; [exact U'|].
      eapply Forall_impl; [|exact F']. intros r (A & B & D & _). split; [exact A|]. split; [exact B|]. split; [exact D | discriminate].
  - intros y s Hp Ho. apply outside_supplied in Ho. destruct Ho as [Ho|(b & Ho & ->)]; [eapply Hs; eauto|]. destruct (Hj _ _ Hp Ho) as (rs & Hu).
    destruct (cs_clean (negb (has (o_flags o) noHTMLEscaping)) b rs Hu false false) as (rs' & U' & F'). exists rs'. split; [exact U'|].
    eapply Forall_impl; [|exact F']. intros r (_ & A & B & _). auto.
Qed.

(** ** C53: documents pass through unchanged
    A compact JSON text without the characters that compaction escapes is a
    fixed point of compaction. *)
Definition kept (esc : bool) (s : bytes) : Prop := (esc = true -> no_html s) /\ separator_free s.

Lemma kept_cons esc c s : kept esc (c :: s) -> esc && is_html c = false /\ kept esc s.
Proof.
  intros [K1 K2]. split.
  - destruct esc; [|reflexivity]. cbn [andb]. destruct (K1 eq_refl) as (A & B & D). unfold is_html. cbn [In] in A, B, D. lia.
  - split; [|intros a x b Hx Es; apply (K2 (c :: a) x b Hx); rewrite Es; reflexivity]. intros He. destruct (K1 He) as (A & B & D). unfold no_html. cbn [In] in A, B, D. tauto.
Qed.
Lemma kept_app esc a s : kept esc (a ++ s) -> kept esc s.
Proof. induction a as [|c a IH]; [auto|]. intros Hk. apply IH. exact (proj2 (kept_cons _ _ _ Hk)). Qed.

Lemma kept_sep3 esc s : bytes_ok s -> kept esc s -> sep3 s = false.
Proof.
  intros Hb [_ K]. destruct s as [|c [|b1 [|b2 s]]]; try reflexivity. cbn [sep3]. destruct ((c =? 0xE2) && (b1 =? 0x80) && (Z.ldiff b2 1 =? 0xA8)) eqn:E; [|reflexivity]. exfalso.
  assert (B2 : is_byte b2) by (unfold bytes_ok in Hb; rewrite Forall_forall in Hb; apply Hb; right; right; left; reflexivity). rewrite ldiff_A8 in E by exact B2.
  apply (K [] b2 s); [lia|]. assert (c = 0xE2) by lia. assert (b1 = 0x80) by lia. subst. reflexivity.
Qed.

Lemma cs_in_next esc c s : bytes_ok (c :: s) -> kept esc (c :: s) -> c <> 92 -> c <> 34 -> cs esc true false (c :: s) = c :: cs esc true false s.
Proof. intros Hb Hk H1 H2. apply cs_in_plain; auto; [apply kept_cons in Hk; apply Hk | eapply kept_sep3; eauto]. Qed.

Lemma cs_jchars_id esc lax us s : jchars lax us s -> forall t, bytes_ok (s ++ t) -> kept esc (s ++ t) -> cs esc true false (s ++ t) = s ++ cs esc true false t.
Proof.
  intros Hj. induction Hj as [|r us s Hr R1 R2 R3 Hj IH|c u us s He Hj IH|h1 h2 h3 h4 a b c d us s A1 A2 A3 A4 Hj IH|b us s L Bb Nr Hj IH]; intros t Hb Hk.
  - reflexivity.
  - specialize (IH t). rewrite <- app_assoc in Hb, Hk |- *. assert (Hb' := Hb). rewrite bytes_ok_app in Hb'. destruct Hb' as [_ Hb'].
    destruct (utf8_head r Hr) as (b & h & E & Hh & Ht). rewrite E in Hb, Hk |- *. cbn [app] in Hb, Hk |- *.
    assert (N : b <> 92 /\ b <> 34).
    { destruct (Z_lt_le_dec r 0x80) as [L|L]; [rewrite utf8_ascii in E by (unfold scalar in Hr; lia); injection E as <- _; auto|].
      pose proof (utf8_high r Hr L) as F. rewrite E in F. inversion F; subst. lia. }
    rewrite cs_in_next by tauto. rewrite cs_in_high by exact Ht. rewrite IH; [rewrite <- app_assoc; reflexivity | exact Hb'|].
    apply kept_cons in Hk. destruct Hk as [_ Hk]. apply kept_app in Hk. exact Hk.
  - cbn [app] in *. destruct (jchars_low_escape c u He) as [L1 L2]. rewrite cs_in_escaped by assumption. rewrite bytes_ok_cons, bytes_ok_cons in Hb. rewrite IH; [reflexivity | tauto|].
    apply (kept_app esc [92; c]). exact Hk.
  - cbn [app] in *. rewrite cs_in_escaped by (cbn; lia || reflexivity). apply hexval_ascii in A1, A2, A3, A4.
    assert (Hb0 : bytes_ok (h1 :: h2 :: h3 :: h4 :: s ++ t)) by (rewrite bytes_ok_cons, bytes_ok_cons in Hb; tauto). assert (Hk0 := kept_app esc [92; 117] _ Hk).
    do 4 (rewrite cs_in_next; [|assumption|assumption|tauto|tauto]; rewrite bytes_ok_cons in Hb0; destruct Hb0 as [_ Hb0]; apply kept_cons in Hk0; destruct Hk0 as [_ Hk0]).
    rewrite IH by auto. reflexivity.
  - cbn [app] in *. assert (N : 128 <= b).
    { destruct (Z_lt_le_dec b 128) as [X|X]; [exfalso|exact X]. apply (Nr b s); [unfold scalar, is_byte in *; lia|]. rewrite utf8_ascii by (unfold is_byte in Bb; lia). reflexivity. }
    rewrite cs_in_next by (assumption || lia). rewrite bytes_ok_cons in Hb. rewrite IH; [reflexivity | tauto | apply kept_cons in Hk; apply Hk].
Qed.

Ltac cs_c := rewrite cs_copied by copied_tac.
Ltac app_refl := do 4 (cbn [app]; rewrite <- ?app_assoc); reflexivity.
Lemma cs_json_id esc lax :
  (forall v s, json no_ws lax v s -> forall t, bytes_ok (s ++ t) -> kept esc (s ++ t) -> cs esc false false (s ++ t) = s ++ cs esc false false t) /\
  (forall vs s, jelems no_ws lax vs s -> forall t, bytes_ok (s ++ t) -> kept esc (s ++ t) -> cs esc false false (s ++ t) = s ++ cs esc false false t) /\
  (forall ms s, jmembers no_ws lax ms s -> forall t, bytes_ok (s ++ t) -> kept esc (s ++ t) -> cs esc false false (s ++ t) = s ++ cs esc false false t).
Proof.
  assert (KC : forall c x, bytes_ok (c :: x) /\ kept esc (c :: x) -> bytes_ok x /\ kept esc x).
  { intros c x [A B]. rewrite bytes_ok_cons in A. split; [tauto | exact (proj2 (kept_cons _ _ _ B))]. }
  assert (KA : forall a x, bytes_ok (a ++ x) /\ kept esc (a ++ x) -> bytes_ok x /\ kept esc x).
  { intros a x [A B]. rewrite bytes_ok_app in A. split; [tauto | exact (kept_app _ _ _ B)]. }
  apply json_mutind.
  - intros t _ _. apply cs_copieds. repeat constructor; copied_tac.
  - intros t _ _. apply cs_copieds. repeat constructor; copied_tac.
  - intros t _ _. apply cs_copieds. repeat constructor; copied_tac.
  - intros l Hl t _ _. apply cs_copieds. eapply Forall_impl; [apply numchar_copied | apply jnumber_chars, Hl].
  - intros us s Hs t Hb Hk. assert (K := conj Hb Hk). cbn [app] in K |- *. rewrite <- app_assoc in K |- *. apply KC in K. rewrite cs_quote_open.
    rewrite (cs_jchars_id esc lax us s Hs) by apply K. cbn [app]. rewrite cs_quote_close. app_refl.
  - intros w -> t _ _. cbn [app]. cs_c. cs_c. app_refl.
  - intros vs s Hs IH t Hb Hk. assert (K := conj Hb Hk). cbn [app] in K |- *. rewrite <- app_assoc in K |- *. apply KC in K. cs_c. rewrite IH by apply K. cbn [app]. cs_c. app_refl.
  - intros w -> t _ _. cbn [app]. cs_c. cs_c. app_refl.
  - intros ms s Hs IH t Hb Hk. assert (K := conj Hb Hk). cbn [app] in K |- *. rewrite <- app_assoc in K |- *. apply KC in K. cs_c. rewrite IH by apply K. cbn [app]. cs_c. app_refl.
  - intros w1 v s w2 -> Hs IH -> t Hb Hk. cbn [app] in *. rewrite app_nil_r in *. apply IH; assumption.
  - intros w1 v s w2 vs r -> Hs IH -> Hr IHr t Hb Hk. cbn [app] in *. rewrite <- app_assoc in *. cbn [app] in *. rewrite IH by assumption. cs_c.
    assert (K := conj Hb Hk). apply KA, KC in K. rewrite IHr by apply K. app_refl.
  - intros w1 k ks w2 w3 v s w4 -> Hks -> -> Hs IH -> t Hb Hk. assert (K := conj Hb Hk). cbn [app] in K |- *. rewrite app_nil_r in K |- *. rewrite <- app_assoc in K |- *. cbn [app] in K |- *.
    apply KC in K. rewrite cs_quote_open, (cs_jchars_id esc lax k ks Hks) by apply K. rewrite cs_quote_close. cs_c. apply KA, KC, KC in K. rewrite IH by apply K. app_refl.
  - intros w1 k ks w2 w3 v s w4 ms r -> Hks -> -> Hs IH -> Hr IHr t Hb Hk. assert (K := conj Hb Hk). cbn [app] in K |- *. rewrite <- app_assoc in K |- *. cbn [app] in K |- *. rewrite <- app_assoc in K |- *. cbn [app] in K |- *.
    apply KC in K. rewrite cs_quote_open, (cs_jchars_id esc lax k ks Hks) by apply K. rewrite cs_quote_close. cs_c. apply KA, KC, KC in K. rewrite IH by apply K. cs_c.
    apply KA, KC in K. rewrite IHr by apply K. app_refl.
Qed.

Lemma compact_id esc lax j s : json no_ws lax j s -> bytes_ok s -> kept esc s -> appendCompactJSON [] s esc = s.
Proof.
  intros Hj Hb Hk. rewrite appendCompactJSON_spec by exact Hb. cbn [app]. assert (X := proj1 (cs_json_id esc lax) j s Hj []). rewrite app_nil_r in X. rewrite X by assumption. apply app_nil_r.
Qed.

(** json.RawMessage(s), for a compact document s. *)
Theorem C53_raw H vcall m w opts o s lax j : host_ok H vcall -> holds H m TRawMessage w (VSlice (map VInt s)) -> call_opts opts = Some o -> json no_ws lax j s ->
  (has (o_flags o) noHTMLEscaping = false -> no_html s) -> separator_free s ->
  forall r, marshal_returns H m (Some (TRawMessage, w)) opts r <-> r = MOk s.
Proof.
  intros OK Hh Ho Hj K1 K2.
  assert (Vb : forall l, vbytes (map VInt l) = Some l) by (induction l as [|c l IH]; [reflexivity | cbn [map vbytes]; rewrite IH; reflexivity]).
  assert (Hb : bytes_ok s).
  { destruct (holds_repr H vcall OK _ _ _ _ Hh) as [l Hl]. eapply (vbytes_ok H m l TRawMessage (TInt KUint8)); eauto. }
  assert (V : venc H vcall o 1 TRawMessage (is_ptr H TRawMessage) false (VSlice (map VInt s)) = VRet s None).
  { cbn [venc native vnative]. rewrite Vb. cbn [encode_raw_message]. destruct (has (o_flags o) noCompact); [reflexivity|]. rewrite (compact_id _ lax j s Hj Hb); [reflexivity|].
    split; [destruct (has (o_flags o) noHTMLEscaping); [discriminate | auto] | exact K2]. }
  assert (En : encodes H vcall o TRawMessage (VSlice (map VInt s)) s None).
  { eapply encodes_venc; [exact OK | eapply holds_tok; eauto | apply dyn_ok_indirect; exact I | exact V]. }
  intros r. apply (marshal_iff H vcall OK m _ w _ opts o s None r Hh Ho En).
Qed.

(** Marshal(json.RawMessage(Marshal(v))) = Marshal(v), when the call is one of
    those C30 is about and the copied texts are clean. *)
Theorem C53_twice H vcall m t w v opts o out : host_ok H vcall -> shortest_ok (h_shortest H) -> sort_ok H -> esc_on o ->
  call H m t w v opts o -> all_sound H vcall o false (t, is_ptr H t, false, v) ->
  (forall y s, part H o (t, is_ptr H t, false, v) y -> supplied H vcall o y false s -> embeddable s /\ (has (o_flags o) noHTMLEscaping = false -> no_html s)) ->
  (forall y s, part H o (t, is_ptr H t, false, v) y -> supplied H vcall o y true s -> well_formed s) ->
  marshal_returns H m (Some (t, w)) opts (MOk out) ->
  forall m' w', holds H m' TRawMessage w' (VSlice (map VInt out)) -> forall r, marshal_returns H m' (Some (TRawMessage, w')) opts r <-> r = MOk out.
Proof.
  intros OK SH SO ON C S Hs Hj R m' w' Hh. destruct (C30_json_partial H vcall m t w v opts o out false OK SH SO ON C S R) as (j & _ & J).
  destruct (C52_utf8 H vcall m t w v opts o out OK SH SO ON C (fun y s A B => proj1 (Hs y s A B)) Hj R) as [_ Sp].
  apply (C53_raw H vcall m' w' opts o out false j OK Hh (c_opts _ _ _ _ _ _ _ C) J); [|exact Sp].
  intros F. apply (C52_html H vcall m t w v opts o out OK SH SO (proj1 ON) F C (fun y s A B => proj2 (Hs y s A B) F) R).
Qed.

(** Without conditions on supplied texts for the values without user methods. *)
Lemma strict_utf8 : (forall v s, json ws false v s -> well_formed s) /\ (forall vs s, jelems ws false vs s -> well_formed s) /\ (forall ms s, jmembers ws false ms s -> well_formed s).
Proof.
  assert (A : forall s, Forall (fun c => 0 <= c < 128) s -> well_formed s) by (intros s Hs; exists s; apply utf8_ascii_string, Hs).
  assert (W : forall w, ws w -> well_formed w) by (intros w Hw; apply A; eapply Forall_impl; [|exact Hw]; unfold ws_char; cbn; intros; lia).
  assert (App : forall a b, well_formed a -> well_formed b -> well_formed (a ++ b)) by (intros a b [r1 U1] [r2 U2]; exists (r1 ++ r2); apply utf8_string_app; assumption).
  assert (Co : forall c b, 0 <= c < 128 -> well_formed b -> well_formed (c :: b)) by (intros c b Hc Hb; change (c :: b) with ([c] ++ b); apply App; [apply A; repeat constructor; lia | exact Hb]).
  assert (Ch : forall us s, jchars false us s -> well_formed s).
  { intros us s Hc. remember false as lax. induction Hc as [|r us s Hr _ _ _ _ IH|c u us s He _ IH|h1 h2 h3 h4 a b c d us s A1 A2 A3 A4 _ IH|b us s L]; subst.
    - exists []. constructor.
    - apply App; [exists [r]; apply utf8_string_single, Hr | auto].
    - apply jchars_low_escape in He. repeat (apply Co; [lia|]). auto.
    - apply hexval_ascii in A1, A2, A3, A4. repeat (apply Co; [lia|]). auto.
    - discriminate L. }
  assert (N0 : well_formed []) by (exists []; constructor).
  apply json_mutind; intros; try (apply A; repeat constructor; lia); repeat (first [assumption | apply Co; [lia|] | apply App | apply W; assumption | eapply Ch; eassumption]).
  - apply A. eapply Forall_impl; [|apply jnumber_chars; eassumption]. unfold numchar, digit. cbn. intros; lia.
Qed.

Lemma valid_json_utf8 s : valid_json s -> well_formed s.
Proof.
  intros (v & w1 & t & w2 & -> & H1 & H2 & Hj). assert (W : forall w, ws w -> well_formed w) by (intros w Hw; exists w; apply utf8_ascii_string; eapply Forall_impl; [|exact Hw]; unfold ws_char; cbn; intros; lia).
  destruct (W _ H1) as [r1 U1]. destruct (W _ H2) as [r2 U2]. destruct (proj1 strict_utf8 _ _ Hj) as [r3 U3]. exists (r1 ++ r3 ++ r2). repeat apply utf8_string_app; assumption.
Qed.

Theorem C53_regular H vcall m t w v out : host_ok H vcall -> shortest_ok (h_shortest H) -> sort_ok H ->
  call H m t w v [] default_opts -> (forall y, part H default_opts (t, is_ptr H t, false, v) y -> regular H y) -> marshal_returns H m (Some (t, w)) [] (MOk out) ->
  forall m' w', holds H m' TRawMessage w' (VSlice (map VInt out)) -> forall r, marshal_returns H m' (Some (TRawMessage, w')) [] r <-> r = MOk out.
Proof.
  intros OK SH SO C Hr R. eapply (C53_twice H vcall m t w v [] default_opts out OK SH SO ik_esc C); [intros y Hy; apply regular_sound, Hr, Hy | | | exact R].
  - intros y s Hp Hs. exfalso. assert (Ry := Hr y Hp). destruct y as [[[ty ca] q] x]. destruct Ry as (_ & Hm & _). destruct (native ty) eqn:En.
    + destruct ty; try discriminate En; destruct x; cbn [supplied] in Hs; try contradiction.
      * destruct Hs as (_ & _ & _ & X & _). apply X. reflexivity.
      * destruct Hs as (_ & X & _). discriminate X.
      * destruct Hs as (X & _). discriminate X.
    + specialize (Hm eq_refl). destruct ty; try discriminate En; destruct Hs as (kk & hp & td' & x' & X & _); congruence.
  - intros y s Hp Hs. assert (Ry := Hr y Hp). destruct y as [[[ty ca] q] x]. destruct Ry as (_ & Hm & Rr). destruct (native ty) eqn:En.
    + destruct ty; try discriminate En; destruct x; cbn [supplied] in Hs; try contradiction.
      * destruct Hs as (X & _). discriminate X.
      * destruct Hs as (X & _). discriminate X.
      * destruct Hs as (_ & Hv). apply valid_json_utf8. exact (Rr s Hv).
    + specialize (Hm eq_refl). destruct ty; try discriminate En; destruct Hs as (kk & hp & td' & x' & X & _); congruence.
Qed.

(** The conditions on supplied texts are needed: AppendJSON results are not
    escaped, and compaction of bytes that are not UTF-8 can make a separator by
    removing a space. *)
Definition always_no_html H : Prop := forall m t w v out, call H m t w v [] default_opts -> marshal_returns H m (Some (t, w)) [] (MOk out) -> no_html out.
Definition always_separator_free H : Prop := forall m t w v out, call H m t w v [] default_opts -> marshal_returns H m (Some (t, w)) [] (MOk out) -> separator_free out.

(** type T int; func (T) AppendJSON(dst []byte) ([]byte, error), which appends "<" *)
Definition lt_impl (t : typ) (k : mkind) : bool := match t, k with TNamed 0, MApp => true | _, _ => false end.
Definition lt_result (k : mkind) (td : typ) (ctx : option Z) : bytes + Z := inl [34; 60; 34].
Definition ltH : host := constH [TInt KInt] lt_impl lt_result.
Lemma lt_ok : host_ok ltH (constV lt_result).
Proof. apply constH_ok; [vm_compute; reflexivity|]. intros k td ctx b [= <-]. apply bytes_okb_ok. reflexivity. Qed.
Theorem C52_method_refuted : host_ok ltH (constV lt_result) /\ ~ always_no_html ltH.
Proof.
  split; [exact lt_ok|]. intros J.
  assert (C : call ltH (mem_of ltH (TNamed 0) (VInt 1)) (TNamed 0) (word_of ltH (TNamed 0) (VInt 1)) (VInt 1) [] default_opts) by (apply (const_call _ lt_impl lt_result 10); vm_compute; reflexivity).
  destruct (J _ _ _ _ [34; 60; 34] C) as [X _]; [exists 12%nat; split; [vm_compute; reflexivity | discriminate]|]. apply X. right. left. reflexivity.
Qed.

Definition bad_raw : val := VSlice (map VInt [0xE2; 0x20; 0x80; 0xA8]).
Lemma bad_call : call mapH (mem_of mapH TRawMessage bad_raw) TRawMessage (word_of mapH TRawMessage bad_raw) bad_raw [] default_opts.
Proof. apply (plain_call _ 10); vm_compute; reflexivity. Qed.
Theorem C52_raw_refuted : host_ok mapH plainV /\ ~ always_separator_free mapH.
Proof.
  split; [exact map_ok|]. intros J. refine (J _ _ _ _ [0xE2; 0x80; 0xA8] bad_call _ [] 0xA8 [] (or_introl eq_refl) eq_refl).
  exists 12%nat. split; [vm_compute; reflexivity | discriminate].
Qed.

(** map[string]json.RawMessage with a key and a string that hold every
    character concerned. *)
Definition emb_t : typ := TMap TString TRawMessage.
Definition emb_raw : bytes := lit "{""a"" : ""<" ++ [0xE2; 0x80; 0xA8] ++ lit "&""}".
Definition emb_v : val := VMap [(VStr (lit "<k>" ++ [0xE2; 0x80; 0xA9; 0xFF]), VSlice (map VInt emb_raw))].
Definition emb_out : bytes := lit "{""\u003ck\u003e\u2029\ufffd"":{""a"":""\u003c\u2028\u0026""}}".
Lemma emb_call : call mapH (mem_of mapH emb_t emb_v) emb_t (word_of mapH emb_t emb_v) emb_v [] default_opts.
Proof. apply (plain_call _ 10); vm_compute; reflexivity. Qed.
Lemma emb_marshal : marshal_returns mapH (mem_of mapH emb_t emb_v) (Some (emb_t, word_of mapH emb_t emb_v)) [] (MOk emb_out).
Proof. exists 20%nat. split; [vm_compute; reflexivity | discriminate]. Qed.
Lemma emb_supplied y json s : part mapH default_opts (emb_t, is_ptr mapH emb_t, false, emb_v) y -> supplied mapH plainV default_opts y json s -> json = true /\ s = emb_raw.
Proof.
  intros Hp. inversion Hp as [|? y1 ? Hc Hp1]; subst.
  { intros (k & hp & td & w & X & _). discriminate X. }
  inversion Hc as [| | | |? ? ? ? ? ? ? ? ? U ? ? S|? ? ? ? ? ? ? ? ? U ? Hi| | |]; subst; try discriminate; injection U as <- <-; [discriminate S|].
  destruct Hi as [[= <- <-]|[]]. clear Hc Hp. inversion Hp1 as [|? y2 ? Hc Hp2]; subst.
  - intros (-> & Hb). split; [reflexivity|]. vm_compute in Hb. injection Hb as <-. reflexivity.
  - exfalso. inversion Hc as [? ? ? ? ? [N _]|? ? ? ? ? [N _]|? ? ? ? ? ? [N _]|? ? ? ? ? ? ? [N _]|? ? ? ? ? ? ? ? [N _]|? ? ? ? ? ? ? ? [N _]|? ? ? ? ? ? ? ? ? ? [N _]| |]; subst; discriminate.
Qed.
Example C52_ex_html : no_html emb_out /\ ~ no_html emb_raw.
Proof.
  split; [|intros [X _]; apply X; vm_compute; tauto].
  refine (C52_html mapH plainV _ _ _ _ [] default_opts _ map_ok ex_shortest (constH_sort _ _ _) eq_refl eq_refl emb_call _ emb_marshal).
  intros y s Hp Hs. destruct (emb_supplied _ _ _ Hp Hs) as [[=] _].
Qed.
Lemma emb_runes : utf8_string emb_raw (lit "{""a"" : ""<" ++ [0x2028] ++ lit "&""}").
Proof.
  assert (A : forall l, forallb (fun c => (0 <=? c) && (c <? 128)) l = true -> utf8_string l l).
  { intros l Hl. apply utf8_ascii_string, Forall_forall. intros c Hc. rewrite forallb_forall in Hl. specialize (Hl c Hc). lia. }
  apply utf8_string_app; [apply A; reflexivity|]. apply (utf8_string_app [0xE2; 0x80; 0xA8]); [apply (utf8_string_single 0x2028); unfold scalar; lia | apply A; reflexivity].
Qed.
Example C52_ex_utf8 : embeddable emb_out /\ ~ embeddable emb_raw.
Proof.
  split.
  - refine (proj1 (C52_utf8 mapH plainV _ _ _ _ [] default_opts _ map_ok ex_shortest (constH_sort _ _ _) ik_esc emb_call _ _ emb_marshal)); intros y s Hp Hs;
      destruct (emb_supplied _ _ _ Hp Hs) as [X ->]; [discriminate X|]. eexists. exact emb_runes.
  - intros X. apply embeddable_separators in X. apply (X (lit "{""a"" : ""<") 0xA8 (lit "&""}")); [left; reflexivity | reflexivity].
Qed.

(** Sending that document through json.RawMessage changes nothing. *)
Lemma emb_valid : valid_json emb_raw.
Proof.
  exists (JObj [([U16 97], JStr (utf16 60 ++ utf16 0x2028 ++ utf16 38))]), [], emb_raw, []. rewrite app_nil_r. repeat split; try constructor.
  apply (j_obj ws false [([U16 97], JStr (utf16 60 ++ utf16 0x2028 ++ utf16 38))] (lit """a"" : ""<" ++ [0xE2; 0x80; 0xA8] ++ lit "&""")).
  assert (A : forall r us s, scalar r -> 0x20 <= r -> r <> 34 -> r <> 92 -> jchars false us s -> jchars false (utf16 r ++ us) (utf8 r ++ s)) by (intros; constructor; assumption).
  refine (jm_one ws false [] [U16 97] [97] [32] [32] _ (34 :: [60; 0xE2; 0x80; 0xA8; 38] ++ [34]) [] _ _ _ _ _ _); try (repeat constructor; fail).
  - apply (A 97 [] []); [unfold scalar; lia | lia | lia | lia | constructor].
  - apply j_str. apply (A 60 (utf16 0x2028 ++ utf16 38) [0xE2; 0x80; 0xA8; 38]); [unfold scalar; lia | lia | lia | lia|].
    apply (A 0x2028 (utf16 38) [38]); [unfold scalar; lia | lia | lia | lia|]. apply (A 38 [] []); [unfold scalar; lia | lia | lia | lia | constructor].
Qed.
Lemma emb_regular y : part mapH default_opts (emb_t, is_ptr mapH emb_t, false, emb_v) y -> regular mapH y.
Proof.
  intros Hp. inversion Hp as [|? y1 ? Hc Hp1]; subst.
  { split; [reflexivity|]. split; [reflexivity|]. split; [intros kt et [= <- <-]; left; reflexivity | apply no_fields; vm_compute; reflexivity]. }
  inversion Hc as [| | | |? ? ? ? ? ? ? ? ? U ? ? S|? ? ? ? ? ? ? ? ? U ? Hi| | |]; subst; try discriminate; injection U as <- <-; [discriminate S|].
  destruct Hi as [[= <- <-]|[]]. clear Hc Hp. inversion Hp1 as [|? y2 ? Hc Hp2]; subst.
  - split; [reflexivity|]. split; [discriminate|]. intros b Hb. vm_compute in Hb. injection Hb as <-. exact emb_valid.
  - exfalso. inversion Hc as [? ? ? ? ? [N _]|? ? ? ? ? [N _]|? ? ? ? ? ? [N _]|? ? ? ? ? ? ? [N _]|? ? ? ? ? ? ? ? [N _]|? ? ? ? ? ? ? ? [N _]|? ? ? ? ? ? ? ? ? ? [N _]| |]; subst; discriminate.
Qed.
Definition emb_again : val := VSlice (map VInt emb_out).
Lemma again_call : call mapH (mem_of mapH TRawMessage emb_again) TRawMessage (word_of mapH TRawMessage emb_again) emb_again [] default_opts.
Proof. apply (plain_call _ 10); vm_compute; reflexivity. Qed.
Example C53_example : marshal_returns mapH (mem_of mapH TRawMessage emb_again) (Some (TRawMessage, word_of mapH TRawMessage emb_again)) [] (MOk emb_out).
Proof.
  apply (C53_regular mapH plainV _ _ _ _ emb_out map_ok ex_shortest (constH_sort _ _ _) emb_call emb_regular emb_marshal); [|reflexivity]. exact (c_holds _ _ _ _ _ _ _ again_call).
Qed.
Example C53_ex_twice : forall r, marshal_returns mapH (mem_of mapH TRawMessage emb_again) (Some (TRawMessage, word_of mapH TRawMessage emb_again)) [] r <-> r = MOk emb_out.
Proof.
  refine (C53_twice mapH plainV _ _ _ _ [] default_opts emb_out map_ok ex_shortest (constH_sort _ _ _) ik_esc emb_call (fun y Hy => regular_sound _ _ _ (emb_regular y Hy)) _ _ emb_marshal _ _ (c_holds _ _ _ _ _ _ _ again_call));
    intros y s Hp Hs; destruct (emb_supplied _ _ _ Hp Hs) as [X ->]; [discriminate X|]. eexists. exact emb_runes.
Qed.
(** json.RawMessage("<") between quotes, with NoHTMLEscaping *)
Definition kept_raw : val := VSlice (map VInt [34; 60; 34]).
Lemma kept_call : call mapH (mem_of mapH TRawMessage kept_raw) TRawMessage (word_of mapH TRawMessage kept_raw) kept_raw [Some ONoHTMLEscaping] (apply default_opts [Some ONoHTMLEscaping]).
Proof. apply (plain_call _ 10); vm_compute; reflexivity. Qed.
Example C53_ex_raw : marshal_returns mapH (mem_of mapH TRawMessage kept_raw) (Some (TRawMessage, word_of mapH TRawMessage kept_raw)) [Some ONoHTMLEscaping] (MOk [34; 60; 34]).
Proof.
  assert (J : json no_ws false (JStr (utf16 60 ++ [])) (34 :: (utf8 60 ++ []) ++ [34])) by (apply j_str, jc_rune; [unfold scalar; lia | lia | lia | lia | constructor]).
  apply (C53_raw mapH plainV _ _ _ _ [34; 60; 34] false _ map_ok (c_holds _ _ _ _ _ _ _ kept_call) (c_opts _ _ _ _ _ _ _ kept_call) J); [discriminate | | reflexivity].
  intros l c r _ E. assert (X : In 0xE2 [34; 60; 34]) by (rewrite E; apply in_or_app; right; left; reflexivity). cbn in X. lia.
Qed.

(** Not every compact document is kept: one with "<" in it is not. *)
Definition always_kept H : Prop := forall m w s j, holds H m TRawMessage w (VSlice (map VInt s)) -> json no_ws false j s -> marshal_returns H m (Some (TRawMessage, w)) [] (MOk s).
Definition lt_raw : val := VSlice (map VInt [34; 60; 34]).
Lemma lt_raw_call : call mapH (mem_of mapH TRawMessage lt_raw) TRawMessage (word_of mapH TRawMessage lt_raw) lt_raw [] default_opts.
Proof. apply (plain_call _ 10); vm_compute; reflexivity. Qed.
Theorem C53_unescaped_refuted : host_ok mapH plainV /\ ~ always_kept mapH.
Proof.
  split; [exact map_ok|]. intros A. assert (J : json no_ws false (JStr (utf16 60 ++ [])) (34 :: (utf8 60 ++ []) ++ [34])) by (apply j_str, jc_rune; [unfold scalar; lia | lia | lia | lia | constructor]).
  assert (R := A _ _ [34; 60; 34] _ (c_holds _ _ _ _ _ _ _ lt_raw_call) J).
  assert (R2 : marshal_returns mapH (mem_of mapH TRawMessage lt_raw) (Some (TRawMessage, word_of mapH TRawMessage lt_raw)) [] (MOk (lit """\u003c"""))) by (exists 12%nat; split; [vm_compute; reflexivity | discriminate]).
  assert (X := marshal_returns_det _ _ _ _ _ _ R R2). discriminate X.
Qed.

Print Assumptions C52_html.
Print Assumptions C52_utf8.
Print Assumptions C52_method_refuted.
Print Assumptions C52_raw_refuted.
Print Assumptions C53_raw.
Print Assumptions C53_twice.
Print Assumptions C53_regular.
Print Assumptions C53_unescaped_refuted.
