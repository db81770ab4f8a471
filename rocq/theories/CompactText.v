(** The exact text compaction gives for a JSON text. *)
From Verif Require Import Base Utf8 JsonSpec NumberProof EscapeModel EscapeProof JsonParse CompactModel CompactProof.

(** The text begins with U+2028 or U+2029. *)
Definition sep_first (s : bytes) : Prop := exists t, s = 0xE2 :: 0x80 :: 0xA8 :: t \/ s = 0xE2 :: 0x80 :: 0xA9 :: t.

(** What is between the quotation marks of a string: escapes are copied, the
    characters that could end a script are escaped, all else is copied.  The
    bytes after a backslash are quotation mark, backslash, slash and bfnrtu;
    60, 62 and 38 are the less-than sign, the greater-than sign and the
    ampersand. *)
Inductive body_text (html : bool) : bytes -> bytes -> Prop :=
| bt_nil : body_text html [] []
| bt_escape c s y : In c [34; 92; 47; 98; 102; 110; 114; 116; 117] -> body_text html s y -> body_text html (92 :: c :: s) (92 :: c :: y)
| bt_less s y : html = true -> body_text html s y -> body_text html (lit "<" ++ s) (lit "\u003c" ++ y)
| bt_greater s y : html = true -> body_text html s y -> body_text html (lit ">" ++ s) (lit "\u003e" ++ y)
| bt_ampersand s y : html = true -> body_text html s y -> body_text html (lit "&" ++ s) (lit "\u0026" ++ y)
| bt_line s y : body_text html s y -> body_text html (0xE2 :: 0x80 :: 0xA8 :: s) (lit "\u2028" ++ y)
| bt_paragraph s y : body_text html s y -> body_text html (0xE2 :: 0x80 :: 0xA9 :: s) (lit "\u2029" ++ y)
| bt_other c s y : c <> 34 -> c <> 92 -> (html = true -> ~ In c [60; 62; 38]) -> ~ sep_first (c :: s) -> body_text html s y -> body_text html (c :: s) (c :: y).

(** The whole text: white space outside of strings is left out. *)
Inductive compact_text (html : bool) : bytes -> bytes -> Prop :=
| ct_end : compact_text html [] []
| ct_space c s y : In c [9; 10; 13; 32] -> compact_text html s y -> compact_text html (c :: s) y
| ct_string b b' s y : body_text html b b' -> compact_text html s y -> compact_text html (34 :: b ++ 34 :: s) (34 :: b' ++ 34 :: y)
| ct_token c s y : 33 <= c < 127 -> ~ In c [34; 60; 62; 38] -> compact_text html s y -> compact_text html (c :: s) (c :: y).

(** ** The function computes it *)
Lemma sep3_first s : bytes_ok s -> (sep3 s = true <-> sep_first s).
Proof.
  intros Hb. split.
  - destruct s as [|a [|b [|c s]]]; cbn [sep3]; try discriminate. rewrite !bytes_ok_cons in Hb. destruct Hb as (_ & _ & Hc & _). rewrite ldiff_A8 by exact Hc. intros E.
    exists s. assert (a = 0xE2 /\ b = 0x80 /\ (c = 0xA8 \/ c = 0xA9)) as (-> & -> & [-> | ->]) by lia; auto.
  - intros (t & [-> | ->]); reflexivity.
Qed.
Lemma sep3_quote c s t : bytes_ok (c :: s) -> ~ sep_first (c :: s) -> sep3 (c :: s ++ 34 :: t) = false.
Proof.
  intros Hb N. destruct (sep3 (c :: s ++ 34 :: t)) eqn:Es; [|reflexivity]. exfalso. destruct s as [|x [|y s]]; cbn [app] in Es.
  - destruct t; cbn [sep3] in Es; [discriminate | lia].
  - cbn [sep3] in Es. change (Z.ldiff 34 1) with 34 in Es. lia.
  - apply N. apply sep3_first; [exact Hb|]. exact Es.
Qed.

Lemma body_cs html b b' : body_text html b b' -> bytes_ok b -> forall t, cs html true false (b ++ 34 :: t) = b' ++ 34 :: cs html false false t.
Proof.
  induction 1 as [|c s y Hc _ IH|s y Hh _ IH|s y Hh _ IH|s y Hh _ IH|s y _ IH|s y _ IH|c s y N1 N2 Nh Ns _ IH]; intros Hb t.
  - apply cs_quote_close.
  - rewrite !bytes_ok_cons in Hb. cbn [app]. assert (X : 0 <= c < 0x80 /\ is_html c = false) by (cbn [In] in Hc; unfold is_html; lia).
    rewrite cs_in_escaped by apply X. rewrite IH by apply Hb. reflexivity.
  - subst html. apply bytes_ok_app in Hb. rewrite <- app_assoc. change (lit "<" ++ s ++ 34 :: t) with (60 :: s ++ 34 :: t). rewrite cs_cons. cbn [andb]. rewrite IH by apply Hb. reflexivity.
  - subst html. apply bytes_ok_app in Hb. rewrite <- app_assoc. change (lit ">" ++ s ++ 34 :: t) with (62 :: s ++ 34 :: t). rewrite cs_cons. cbn [andb]. rewrite IH by apply Hb. reflexivity.
  - subst html. apply bytes_ok_app in Hb. rewrite <- app_assoc. change (lit "&" ++ s ++ 34 :: t) with (38 :: s ++ 34 :: t). rewrite cs_cons. cbn [andb]. rewrite IH by apply Hb. reflexivity.
  - rewrite !bytes_ok_cons in Hb. cbn [app]. rewrite cs_cons. replace (html && is_html 226) with false by (destruct html; reflexivity).
    change (sep3 (226 :: 128 :: 168 :: s ++ 34 :: t)) with true. cbn iota. cbn [skipn]. rewrite IH by apply Hb. reflexivity.
  - rewrite !bytes_ok_cons in Hb. cbn [app]. rewrite cs_cons. replace (html && is_html 226) with false by (destruct html; reflexivity).
    change (sep3 (226 :: 128 :: 169 :: s ++ 34 :: t)) with true. cbn iota. cbn [skipn]. rewrite IH by apply Hb. reflexivity.
  - assert (Hb' := Hb). rewrite bytes_ok_cons in Hb. cbn [app]. rewrite cs_in_plain; [rewrite IH by apply Hb; reflexivity | | exact N2 | exact N1 | apply sep3_quote; assumption].
    destruct html; [|reflexivity]. specialize (Nh eq_refl). cbn [In] in Nh. unfold is_html. cbn [andb]. lia.
Qed.

Lemma compact_cs html s y : compact_text html s y -> bytes_ok s -> cs html false false s = y.
Proof.
  induction 1 as [|c s y Hc _ IH|b b' s y Hbd _ IH|c s y Hc Hn _ IH]; intros Hb.
  - reflexivity.
  - rewrite bytes_ok_cons in Hb. rewrite <- (IH (proj2 Hb)). apply (cs_ws html [c] s). constructor; [|constructor]. cbn [In] in Hc. unfold ws_char. lia.
  - rewrite bytes_ok_cons, bytes_ok_app, bytes_ok_cons in Hb. destruct Hb as (_ & Hb1 & _ & Hb2). rewrite cs_quote_open, (body_cs html b b' Hbd Hb1). rewrite (IH Hb2). reflexivity.
  - rewrite bytes_ok_cons in Hb. rewrite cs_copied; [rewrite (IH (proj2 Hb)); reflexivity|]. cbn [In] in Hn. unfold copied, is_html, is_space. lia.
Qed.

(** ** Every JSON text has such a text *)
Lemma body_app_high html h s y : Forall (fun b => 0x80 <= b < 0xC0) h -> body_text html s y -> body_text html (h ++ s) (h ++ y).
Proof.
  intros F B. induction F as [|b h Hb _ IH]; [exact B|]. cbn [app]. apply bt_other; [lia | lia | intros _; cbn [In]; lia | | exact IH].
  intros (t & [E|E]); injection E as E _; lia.
Qed.

Lemma jchars_body html lax us s : jchars lax us s -> bytes_ok s -> exists y, body_text html s y.
Proof.
  induction 1 as [|r us s Hr H20 H34 H92 H IH|c u us s Hc H IH|h1 h2 h3 h4 a b c d us s Ha Hb Hc Hd H IH|b us s Hl Hb Hn H IH]; intros Hok.
  - eexists. constructor.
  - assert (Hok0 := Hok). apply bytes_ok_app in Hok. destruct (IH (proj2 Hok)) as [y B]. destruct (Z_lt_dec r 0x80) as [L|L].
    + rewrite (utf8_ascii r) in * by (unfold scalar in Hr; lia). cbn [app] in *.
      assert (X : (html = true /\ (r = 60 \/ r = 62 \/ r = 38)) \/ (html = true -> ~ In r [60; 62; 38])).
      { destruct html; [|right; discriminate]. cbn [In]. destruct (Z.eq_dec r 60); [auto|]. destruct (Z.eq_dec r 62); [auto|]. destruct (Z.eq_dec r 38); [auto|]. right. intros _. lia. }
      destruct X as [(Hh & [-> |[-> | ->]])|X]; [eexists; apply (bt_less html s y Hh B) | eexists; apply (bt_greater html s y Hh B) | eexists; apply (bt_ampersand html s y Hh B)|].
      eexists. apply bt_other; try eassumption. intros (t & [E|E]); injection E as E _; lia.
    + destruct ((r =? 0x2028) || (r =? 0x2029)) eqn:E2.
      * assert (r = 0x2028 \/ r = 0x2029) as [-> | ->] by lia; [eexists; apply (bt_line html s y B) | eexists; apply (bt_paragraph html s y B)].
      * assert (Hs := utf8_sep r Hr s). rewrite E2 in Hs. assert (Hs3 : sep3 (utf8 r ++ s) = false) by (destruct Hs as [Hs|(? & _ & Hs)]; exact Hs).
        assert (Hhi := utf8_high r Hr ltac:(lia)). destruct (utf8_head r Hr) as (b & t0 & Eb & Hb & Ht0). rewrite Eb in *. cbn [app] in *. inversion Hhi; subst.
        eexists. apply bt_other; [lia | lia | intros _; cbn [In]; lia | | apply (body_app_high html t0 s y Ht0 B)].
        intros X. apply sep3_first in X; [congruence | exact Hok0].
  - rewrite !bytes_ok_cons in Hok. destruct (IH ltac:(apply Hok)) as [y B]. eexists. apply bt_escape; [|exact B].
    unfold esc2 in Hc. cbn [In]. repeat (match type of Hc with (if ?x then _ else _) = _ => destruct x eqn:?; [lia|] end). discriminate.
  - rewrite !bytes_ok_cons in Hok. destruct (IH ltac:(apply Hok)) as [y B].
    assert (D : forall h x s y, hexval h = Some x -> body_text html s y -> body_text html (h :: s) (h :: y)).
    { intros h x s0 y0 Hx B0. destruct (hexval_ascii _ _ Hx) as (A1 & A2 & A3 & A4). unfold is_html in A2. apply bt_other; auto; [intros _; cbn [In]; lia|].
      intros (t & [E|E]); injection E as E _; lia. }
    eexists. apply bt_escape; [cbn; tauto|]. eapply D; [exact Ha|]. eapply D; [exact Hb|]. eapply D; [exact Hc|]. eapply D; [exact Hd|]. exact B.
  - assert (Hok0 := Hok). rewrite bytes_ok_cons in Hok. destruct (IH (proj2 Hok)) as [y B]. assert (Hh : 0x80 <= b) by (eapply no_rune_high; eauto; unfold is_byte in Hb; lia).
    eexists. apply bt_other; [lia | lia | intros _; cbn [In]; lia | | exact B].
    intros (t & [E|E]); [apply (Hn 0x2028 t) | apply (Hn 0x2029 t)]; try (unfold scalar; lia); exact E.
Qed.

Lemma compact_app_ws html w s y : ws w -> compact_text html s y -> compact_text html (w ++ s) y.
Proof. induction 1 as [|c w Hc _ IH]; intros C; [exact C|]. cbn [app]. apply ct_space; [unfold ws_char in Hc; cbn [In]; lia | auto]. Qed.
Lemma compact_app_tokens html l s y : Forall (fun c => 33 <= c < 127 /\ ~ In c [34; 60; 62; 38]) l -> compact_text html s y -> compact_text html (l ++ s) (l ++ y).
Proof. induction 1 as [|c l [H1 H2] _ IH]; intros C; [exact C|]. cbn [app]. apply ct_token; auto. Qed.

Lemma json_compact html lax :
  (forall v s, json ws lax v s -> bytes_ok s -> exists s', forall t y, compact_text html t y -> compact_text html (s ++ t) (s' ++ y)) /\
  (forall vs s, jelems ws lax vs s -> bytes_ok s -> exists s', forall t y, compact_text html t y -> compact_text html (s ++ t) (s' ++ y)) /\
  (forall ms s, jmembers ws lax ms s -> bytes_ok s -> exists s', forall t y, compact_text html t y -> compact_text html (s ++ t) (s' ++ y)).
Proof.
  assert (TK : forall c, 33 <= c < 127 -> ~ In c [34; 60; 62; 38] -> forall s y, compact_text html s y -> compact_text html (c :: s) (c :: y)) by (intros; apply ct_token; assumption).
  assert (ST : forall us b, jchars lax us b -> bytes_ok b -> exists b', forall t y, compact_text html t y -> compact_text html (34 :: b ++ 34 :: t) (34 :: b' ++ 34 :: y)).
  { intros us b J Hb. destruct (jchars_body html lax us b J Hb) as [b' B]. exists b'. intros t y C. apply ct_string; assumption. }
  assert (TN : forall l, Forall (fun c => 33 <= c < 127 /\ ~ In c [34; 60; 62; 38]) l -> exists s', forall t y, compact_text html t y -> compact_text html (l ++ t) (s' ++ y)).
  { intros l F. exists l. intros t y. apply compact_app_tokens, F. }
  apply json_mutind.
  - intros _. apply TN. repeat constructor; try lia; cbn [In]; lia.
  - intros _. apply TN. repeat constructor; try lia; cbn [In]; lia.
  - intros _. apply TN. repeat constructor; try lia; cbn [In]; lia.
  - intros l Hl _. apply TN. eapply Forall_impl; [|apply jnumber_chars, Hl]. unfold numchar, digit. cbn [In]. intros; lia.
  - intros us s Hs Hok. rewrite bytes_ok_cons, bytes_ok_app in Hok. destruct (ST us s Hs) as [b' B]; [apply Hok|]. exists (34 :: b' ++ [34]). intros t y C. specialize (B t y C). cbn [app]. rewrite <- !app_assoc. exact B.
  - intros w Hw _. exists [91; 93]. intros t y C. cbn [app]. apply TK; [lia | cbn [In]; lia|]. rewrite <- app_assoc. apply compact_app_ws; [exact Hw|]. apply TK; [lia | cbn [In]; lia | exact C].
  - intros vs s Hs IH Hok. rewrite bytes_ok_cons, bytes_ok_app in Hok. destruct IH as [s' S]; [apply Hok|]. exists (91 :: s' ++ [93]). intros t y C. cbn [app]. rewrite <- !app_assoc.
    apply TK; [lia | cbn [In]; lia|]. apply S. apply TK; [lia | cbn [In]; lia | exact C].
  - intros w Hw _. exists [123; 125]. intros t y C. cbn [app]. apply TK; [lia | cbn [In]; lia|]. rewrite <- app_assoc. apply compact_app_ws; [exact Hw|]. apply TK; [lia | cbn [In]; lia | exact C].
  - intros vs s Hs IH Hok. rewrite bytes_ok_cons, bytes_ok_app in Hok. destruct IH as [s' S]; [apply Hok|]. exists (123 :: s' ++ [125]). intros t y C. cbn [app]. rewrite <- !app_assoc.
    apply TK; [lia | cbn [In]; lia|]. apply S. apply TK; [lia | cbn [In]; lia | exact C].
  - intros w1 v s w2 Hw1 Hs IH Hw2 Hok. rewrite !bytes_ok_app in Hok. destruct IH as [s' S]; [apply Hok|]. exists s'. intros t y C. rewrite <- !app_assoc.
    apply compact_app_ws; [exact Hw1|]. apply S. apply compact_app_ws; assumption.
  - intros w1 v s w2 vs t Hw1 Hs IH Hw2 Ht IHt Hok. rewrite !bytes_ok_app, bytes_ok_cons in Hok. destruct IH as [s' S]; [apply Hok|]. destruct IHt as [t' T]; [apply Hok|].
    exists (s' ++ 44 :: t'). intros q y C. repeat (rewrite <- !app_assoc; cbn [app]). apply compact_app_ws; [exact Hw1|]. apply S. apply compact_app_ws; [exact Hw2|]. apply TK; [lia | cbn [In]; lia|]. apply T, C.
  - intros w1 k ks w2 w3 v s w4 Hw1 Hk Hw2 Hw3 Hs IH Hw4 Hok. rewrite bytes_ok_app, bytes_ok_cons, bytes_ok_app, bytes_ok_cons, bytes_ok_app, bytes_ok_cons, !bytes_ok_app in Hok.
    destruct IH as [s' S]; [apply Hok|]. destruct (ST k ks Hk) as [k' K]; [apply Hok|]. exists (34 :: k' ++ 34 :: 58 :: s'). intros q y C. repeat (rewrite <- !app_assoc; cbn [app]).
    apply compact_app_ws; [exact Hw1|]. apply K. apply compact_app_ws; [exact Hw2|]. apply TK; [lia | cbn [In]; lia|]. apply compact_app_ws; [exact Hw3|]. apply S. apply compact_app_ws; assumption.
  - intros w1 k ks w2 w3 v s w4 ms t Hw1 Hk Hw2 Hw3 Hs IH Hw4 Ht IHt Hok.
    rewrite bytes_ok_app, bytes_ok_cons, bytes_ok_app, bytes_ok_cons, bytes_ok_app, bytes_ok_cons, !bytes_ok_app, bytes_ok_cons in Hok.
    destruct IH as [s' S]; [apply Hok|]. destruct IHt as [t' T]; [apply Hok|]. destruct (ST k ks Hk) as [k' K]; [apply Hok|]. exists (34 :: k' ++ 34 :: 58 :: s' ++ 44 :: t'). intros q y C. repeat (rewrite <- !app_assoc; cbn [app]).
    apply compact_app_ws; [exact Hw1|]. apply K. apply compact_app_ws; [exact Hw2|]. apply TK; [lia | cbn [In]; lia|]. apply compact_app_ws; [exact Hw3|]. apply S. apply compact_app_ws; [exact Hw4|].
    apply TK; [lia | cbn [In]; lia|]. apply T, C.
Qed.

(** The output of appendCompactJSON on a JSON text. *)
Theorem compact_text_of html lax v s : json_text lax v s -> bytes_ok s -> forall y, cs html false false s = y <-> compact_text html s y.
Proof.
  intros (w1 & t & w2 & -> & Hw1 & Hw2 & Ht) Hok y. split; [|intros C; apply compact_cs; assumption].
  assert (Hok' := Hok). rewrite !bytes_ok_app in Hok'. destruct (proj1 (json_compact html lax) v t Ht) as [s' S]; [apply Hok'|].
  assert (C : compact_text html (w1 ++ t ++ w2) s').
  { apply compact_app_ws; [exact Hw1|]. rewrite <- (app_nil_r s'). apply S. rewrite <- (app_nil_r w2). apply compact_app_ws; [exact Hw2 | constructor]. }
  rewrite (compact_cs html _ _ C Hok). intros <-. exact C.
Qed.
Corollary compact_text_det html lax v s y y' : json_text lax v s -> bytes_ok s -> compact_text html s y -> compact_text html s y' -> y = y'.
Proof. intros J Hb C C'. rewrite <- (compact_cs html s y C Hb). apply compact_cs; assumption. Qed.
