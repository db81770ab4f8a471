(** appendCompactJSON preserves the value of a JSON text. *)
From Verif Require Import Base Utf8 JsonSpec NumberProof EscapeModel EscapeProof JsonParse CompactModel.

(** The same transformation as a function of the remaining bytes. *)
Fixpoint cs (esc inS skip : bool) (s : bytes) : bytes :=
  match s with
  | [] => []
  | c :: s' =>
    let next :=
      if negb inS then
        if c =? 34 then c :: cs esc true skip s'
        else if is_space c then cs esc inS skip s'
        else c :: cs esc inS skip s'
      else if skip then c :: cs esc inS false s'
      else if c =? 92 then c :: cs esc inS true s'
      else if c =? 34 then c :: cs esc false skip s'
      else c :: cs esc inS skip s' in
    if esc && is_html c then html_esc c ++ cs esc inS skip s'
    else match s' with
    | b1 :: b2 :: s3 =>
      if (c =? 0xE2) && (b1 =? 0x80) && (Z.ldiff b2 1 =? 0xA8)
      then sep_esc b2 ++ cs esc inS (if inS then false else skip) s3
      else next
    | _ => next
    end
  end.

Lemma ldiff_A8 b : is_byte b -> (Z.ldiff b 1 =? 0xA8) = (b =? 0xA8) || (b =? 0xA9).
Proof.
  intros Hb.
  assert (K : forallb (fun b => Bool.eqb (Z.ldiff b 1 =? 0xA8) ((b =? 0xA8) || (b =? 0xA9))) all_bytes = true)
    by (vm_compute; reflexivity).
  apply (byte_forallb _ K) in Hb. apply Bool.eqb_prop in Hb. exact Hb.
Qed.

(** Case analysis on three leading bytes. *)
Definition sep3 (s : bytes) : bool :=
  match s with
  | c :: b1 :: b2 :: _ => (c =? 0xE2) && (b1 =? 0x80) && (Z.ldiff b2 1 =? 0xA8)
  | _ => false
  end.

Definition cs_next esc inS skip c s' :=
  if negb inS then
    if c =? 34 then c :: cs esc true skip s'
    else if is_space c then cs esc inS skip s'
    else c :: cs esc inS skip s'
  else if skip then c :: cs esc inS false s'
  else if c =? 92 then c :: cs esc inS true s'
  else if c =? 34 then c :: cs esc false skip s'
  else c :: cs esc inS skip s'.

Lemma cs_cons esc inS skip c s' :
  cs esc inS skip (c :: s') =
  if esc && is_html c then html_esc c ++ cs esc inS skip s'
  else if sep3 (c :: s')
  then sep_esc (nth 2 (c :: s') 0) ++ cs esc inS (if inS then false else skip) (skipn 3 (c :: s'))
  else cs_next esc inS skip c s'.
Proof.
  cbn [cs]. destruct (esc && is_html c); [reflexivity|].
  destruct s' as [|b1 [|b2 s3]]; reflexivity.
Qed.

Lemma sep3_at src i : (i < length src)%nat ->
  (at_ src i =? 0xE2) && (i + 2 <? length src)%nat && (at_ src (i + 1) =? 0x80)
    && (Z.ldiff (at_ src (i + 2)) 1 =? 0xA8) = sep3 (skipn i src).
Proof.
  intros Hi. rewrite skipn_cons_at by lia.
  destruct (i + 2 <? length src)%nat eqn:E.
  - rewrite andb_true_r. rewrite (skipn_cons_at src (S i)) by lia. rewrite (skipn_cons_at src (S (S i))) by lia.
    cbn [sep3]. replace (i + 1)%nat with (S i) by lia. replace (i + 2)%nat with (S (S i)) by lia. reflexivity.
  - rewrite andb_false_r, !andb_false_l.
    assert (L : (length (skipn (S i) src) <= 1)%nat) by (rewrite skipn_length; lia).
    destruct (skipn (S i) src) as [|x [|y l]]; simpl in L; try reflexivity; lia.
Qed.

Lemma compact_loop_spec esc src : bytes_ok src ->
  forall n i inS skip at0 dst, n = (length src - i)%nat -> (at0 <= i <= length src)%nat ->
    compact_loop n esc src i inS skip at0 dst = dst ++ sub src at0 i ++ cs esc inS skip (skipn i src).
Proof.
  intros Hok n. induction n as [n IH] using lt_wf_ind. intros i inS skip at0 dst Hn Hi.
  destruct n as [|n].
  { assert (i = length src) by lia. subst i. cbn [compact_loop]. rewrite skipn_all. cbn [cs].
    rewrite app_nil_r, sub_full by lia.
    destruct (at0 <? length src)%nat eqn:E; [reflexivity|].
    assert (at0 = length src) by lia. subst. rewrite skipn_all, app_nil_r. reflexivity. }
  cbn [compact_loop]. rewrite sep3_at by lia.
  rewrite (skipn_cons_at src i) by lia. rewrite cs_cons.
  assert (Hkeep : forall inS' skip', compact_loop n esc src (S i) inS' skip' at0 dst =
    dst ++ sub src at0 i ++ at_ src i :: cs esc inS' skip' (skipn (S i) src)).
  { intros. rewrite IH by lia. rewrite sub_snoc by lia. rewrite <- !app_assoc. reflexivity. }
  destruct (esc && is_html (at_ src i)).
  { rewrite IH by lia. rewrite sub_nil by lia. rewrite flush_eq, <- !app_assoc. reflexivity. }
  destruct (sep3 (at_ src i :: skipn (S i) src)) eqn:Esep.
  - (* U+2028/9: two more iterations skip the continuation bytes *)
    assert (H3 : (i + 2 < length src)%nat).
    { rewrite <- skipn_cons_at in Esep by lia. rewrite <- sep3_at in Esep by lia. lia. }
    assert (Hb1 : at_ src (S i) = 0x80 /\ Z.ldiff (at_ src (S (S i))) 1 = 0xA8).
    { rewrite <- skipn_cons_at in Esep by lia. rewrite <- sep3_at in Esep by lia.
      replace (S i) with (i + 1)%nat by lia. replace (S (i + 1)) with (i + 2)%nat by lia. lia. }
    destruct Hb1 as [Hb1 Hb2].
    assert (Hb2' : at_ src (S (S i)) = 0xA8 \/ at_ src (S (S i)) = 0xA9).
    { assert (B : is_byte (at_ src (S (S i)))).
      { apply Forall_forall with (x := at_ src (S (S i))) in Hok; [exact Hok|]. unfold at_. apply nth_In. lia. }
      assert (L := ldiff_A8 _ B). lia. }
    destruct n as [|[|n]]; try lia.
    assert (Hn2 : nth 2 (at_ src i :: skipn (S i) src) 0 = at_ src (i + 2)).
    { rewrite (skipn_cons_at src (S i)), (skipn_cons_at src (S (S i))) by lia. cbn [nth].
      f_equal; lia. }
    rewrite Hn2.
    assert (Hs3 : skipn 3 (at_ src i :: skipn (S i) src) = skipn (S (S (S i))) src).
    { rewrite <- skipn_cons_at by lia. rewrite skipn_skipn. f_equal. }
    rewrite Hs3.
    assert (Fin : forall inS' skip' d, compact_loop n esc src (S (S (S i))) inS' skip' (i + 3) d =
              d ++ cs esc inS' skip' (skipn (S (S (S i))) src)).
    { intros. rewrite IH by lia. rewrite sub_nil by lia. reflexivity. }
    rewrite flush_eq. set (D := (dst ++ sub src at0 i) ++ sep_esc (at_ src (i + 2))).
    replace (dst ++ sub src at0 i ++ sep_esc (at_ src (i + 2)) ++
       cs esc inS (if inS then false else skip) (skipn (S (S (S i))) src))
      with (D ++ cs esc inS (if inS then false else skip) (skipn (S (S (S i))) src))
      by (unfold D; rewrite <- !app_assoc; reflexivity).
    set (x1 := at_ src (S i)) in *. set (x2 := at_ src (S (S i))) in *.
    assert (Step : forall m j inS' skip', at_ src j = x1 \/ at_ src j = x2 -> (j < length src)%nat ->
       compact_loop (S m) esc src j inS' skip' (i + 3) D =
       compact_loop m esc src (S j) inS' (if inS' then false else skip') (i + 3) D).
    { intros m j inS' skip' Hj Hjl. cbn [compact_loop].
      assert (Hv : at_ src j = 0x80 \/ at_ src j = 0xA8 \/ at_ src j = 0xA9) by lia.
      unfold is_html, is_space.
      assert (Hh : (at_ src j =? 60) || (at_ src j =? 62) || (at_ src j =? 38) = false) by lia.
      rewrite Hh, andb_false_r. replace (at_ src j =? 0xE2) with false by lia. cbn [andb].
      replace (at_ src j =? 34) with false by lia. replace (at_ src j =? 92) with false by lia.
      replace ((at_ src j =? 32) || (at_ src j =? 10) || (at_ src j =? 13) || (at_ src j =? 9)) with false by lia.
      destruct inS', skip'; reflexivity. }
    rewrite (Step (S n) (S i)) by (auto; lia). rewrite (Step n (S (S i))) by (auto; lia).
    rewrite Fin. destruct inS; reflexivity.
  - unfold cs_next. destruct inS; cbn [negb].
    + destruct skip; [apply Hkeep|]. destruct (at_ src i =? 92); [apply Hkeep|].
      destruct (at_ src i =? 34); apply Hkeep.
    + destruct (at_ src i =? 34); [apply Hkeep|]. destruct (is_space (at_ src i)); [|apply Hkeep].
      rewrite IH by lia. rewrite sub_nil by lia. rewrite flush_eq, <- !app_assoc. reflexivity.
Qed.

Lemma appendCompactJSON_spec dst src esc : bytes_ok src ->
  appendCompactJSON dst src esc = dst ++ cs esc false false src.
Proof. intros. unfold appendCompactJSON. rewrite compact_loop_spec by (auto; lia). reflexivity. Qed.

(** ** On JSON tokens *)

(** Characters the compaction may leave. *)
Definition clean_rune (esc : bool) (r : Z) : Prop :=
  scalar r /\ r <> 0x2028 /\ r <> 0x2029 /\ (esc = true -> r <> 60 /\ r <> 62 /\ r <> 38).
Definition clean (esc : bool) (s : bytes) : Prop := exists rs, utf8_string s rs /\ Forall (clean_rune esc) rs.

Lemma clean_nil esc : clean esc [].
Proof. exists []. split; constructor. Qed.

Lemma clean_app esc a b : clean esc a -> clean esc b -> clean esc (a ++ b).
Proof.
  intros (r1 & H1 & F1) (r2 & H2 & F2). exists (r1 ++ r2).
  split; [apply utf8_string_app; assumption | apply Forall_app; auto].
Qed.

Lemma clean_ascii esc b : 0 <= b < 0x80 -> is_html b = false -> clean esc [b].
Proof.
  intros Hb Hh. exists [b]. split.
  - assert (U := utf8_string_single b). rewrite utf8_ascii in U by assumption. apply U. unfold scalar; lia.
  - constructor; [|constructor]. unfold clean_rune, scalar, is_html in *. split; [lia|]. split; [lia|]. split; [lia|]. lia.
Qed.

Lemma clean_asciis esc l : Forall (fun b => 0 <= b < 0x80 /\ is_html b = false) l -> clean esc l.
Proof.
  induction 1 as [|b l [Hb Hh] H IH]; [apply clean_nil|].
  change (b :: l) with ([b] ++ l). apply clean_app; [apply clean_ascii; assumption | exact IH].
Qed.

Lemma clean_cons esc b s : 0 <= b < 0x80 -> is_html b = false -> clean esc s -> clean esc (b :: s).
Proof. intros. change (b :: s) with ([b] ++ s). apply clean_app; [apply clean_ascii; assumption | assumption]. Qed.

(** Bytes outside strings that are copied unchanged. *)
Definition copied (b : Z) : Prop := 0 <= b < 0x80 /\ is_html b = false /\ is_space b = false /\ b <> 34.

Lemma cs_copied esc b s : copied b -> cs esc false false (b :: s) = b :: cs esc false false s.
Proof.
  intros (Hb & Hh & Hs & H34). rewrite cs_cons. rewrite Hh, andb_false_r.
  assert (sep3 (b :: s) = false) as ->.
  { destruct s as [|b1 [|b2 s3]]; cbn [sep3]; try reflexivity. replace (b =? 0xE2) with false by lia. reflexivity. }
  unfold cs_next. cbn [negb]. replace (b =? 34) with false by lia. rewrite Hs. reflexivity.
Qed.

Lemma cs_copieds esc l s : Forall copied l -> cs esc false false (l ++ s) = l ++ cs esc false false s.
Proof. induction 1 as [|b l Hb H IH]; [reflexivity|]. cbn [app]. rewrite cs_copied by assumption. congruence. Qed.

Lemma cs_ws esc w s : ws w -> cs esc false false (w ++ s) = cs esc false false s.
Proof.
  induction 1 as [|b w Hb H IH]; [reflexivity|]. cbn [app]. rewrite cs_cons.
  assert (Hh : is_html b = false) by (unfold is_html, ws_char in *; lia).
  rewrite Hh, andb_false_r.
  assert (sep3 (b :: w ++ s) = false) as ->.
  { unfold ws_char in Hb. destruct (w ++ s) as [|b1 [|b2 s3]]; cbn [sep3]; try reflexivity. replace (b =? 0xE2) with false by lia. reflexivity. }
  unfold cs_next. cbn [negb]. replace (b =? 34) with false by (unfold ws_char in Hb; lia).
  replace (is_space b) with true by (unfold is_space, ws_char in *; lia). exact IH.
Qed.

Lemma cs_quote_open esc s : cs esc false false (34 :: s) = 34 :: cs esc true false s.
Proof. rewrite cs_cons. destruct esc, s as [|b1 [|b2 s3]]; reflexivity. Qed.

Lemma cs_quote_close esc s : cs esc true false (34 :: s) = 34 :: cs esc false false s.
Proof. rewrite cs_cons. destruct esc, s as [|b1 [|b2 s3]]; reflexivity. Qed.

(** Inside a string, a byte that is neither HTML, backslash, quote nor the
    start of a separator is copied. *)
Lemma cs_in_plain esc b s : (esc && is_html b = false) -> b <> 92 -> b <> 34 -> sep3 (b :: s) = false ->
  cs esc true false (b :: s) = b :: cs esc true false s.
Proof.
  intros Hh H92 H34 Hsep. rewrite cs_cons, Hh, Hsep. unfold cs_next. cbn [negb].
  replace (b =? 92) with false by lia. replace (b =? 34) with false by lia. reflexivity.
Qed.

Lemma cs_in_high esc h s : Forall (fun b => 0x80 <= b < 0xC0) h ->
  cs esc true false (h ++ s) = h ++ cs esc true false s.
Proof.
  induction 1 as [|b h Hb H IH]; [reflexivity|]. cbn [app]. rewrite cs_in_plain.
  - congruence.
  - unfold is_html. destruct esc; cbn [andb]; [lia | reflexivity].
  - lia.
  - lia.
  - destruct (h ++ s) as [|b1 [|b2 s3]]; cbn [sep3]; try reflexivity. replace (b =? 0xE2) with false by lia. reflexivity.
Qed.

Lemma cs_in_escaped esc c s : 0 <= c < 0x80 -> is_html c = false ->
  cs esc true false (92 :: c :: s) = 92 :: c :: cs esc true false s.
Proof.
  intros Hc Hh. rewrite cs_cons.
  assert (sep3 (92 :: c :: s) = false) as -> by (destruct s; reflexivity).
  assert (esc && is_html 92 = false) as -> by (destruct esc; reflexivity).
  unfold cs_next. cbn [negb]. rewrite Z.eqb_refl. f_equal.
  rewrite cs_cons, Hh, andb_false_r.
  assert (sep3 (c :: s) = false) as ->.
  { destruct s as [|b1 [|b2 s3]]; cbn [sep3]; try reflexivity. replace (c =? 0xE2) with false by lia. reflexivity. }
  unfold cs_next. reflexivity.
Qed.

Lemma utf8_sep r : scalar r -> forall s, sep3 (utf8 r ++ s) = (r =? 0x2028) || (r =? 0x2029) \/
  exists b, utf8 r = [b] /\ sep3 (utf8 r ++ s) = false.
Proof.
  intros Hr s. destruct (sep3 (utf8 r ++ s)) eqn:E.
  - left. remember (utf8 r ++ s) as l eqn:El. destruct l as [|c [|b1 [|b2 l]]]; try discriminate.
    cbn [sep3] in E.
    assert (Hb2 : is_byte b2 \/ ~ is_byte b2) by (unfold is_byte; lia).
    assert (E3 : (c =? 0xE2) = true /\ (b1 =? 0x80) = true /\ (Z.ldiff b2 1 =? 0xA8) = true) by (rewrite !andb_true_iff in E; tauto).
    destruct E3 as (E1 & E2 & E3).
    assert (c = 0xE2) by lia. assert (b1 = 0x80) by lia. subst c b1.
    unfold utf8 in El. unfold scalar in Hr.
    destruct (r <? 0x80) eqn:L1; [injection El as El; lia|].
    destruct (r <? 0x800) eqn:L2; [injection El as El _; lia|].
    destruct (r <? 0x10000) eqn:L3; [|injection El as El _; lia].
    injection El as Ea Eb Ec _.
    assert (B : is_byte b2) by (unfold is_byte; lia).
    rewrite ldiff_A8 in E3 by exact B. lia.
  - unfold scalar in Hr.
    destruct ((r =? 0x2028) || (r =? 0x2029)) eqn:E2; [|left; reflexivity].
    exfalso. assert (r = 0x2028 \/ r = 0x2029) as [->| ->] by lia; discriminate.
Qed.

Lemma jchars_low_escape c u : esc2 c = Some u -> 0 <= c < 0x80 /\ is_html c = false.
Proof.
  unfold esc2, is_html. repeat match goal with |- context[if ?b then _ else _] => destruct b eqn:? end; try discriminate; lia.
Qed.

Lemma hexval_ascii h x : hexval h = Some x -> 48 <= h < 0x80 /\ is_html h = false /\ h <> 92 /\ h <> 34.
Proof.
  unfold hexval, is_html. repeat match goal with |- context[if ?b then _ else _] => destruct b eqn:? end; try discriminate; lia.
Qed.

Lemma prefix_trans a b c : prefix a b -> prefix b c -> prefix a c.
Proof. intros [x ->] [y ->]. exists (x ++ y). rewrite app_assoc. reflexivity. Qed.

Lemma no_rune_hi_prefix b s1 s2 : 0x80 <= b -> prefix (hi_prefix s2) (hi_prefix s1) -> no_rune (b :: s1) -> no_rune (b :: s2).
Proof.
  intros Hb [q Hq] H r rest Hr E.
  assert (Hr80 : 0x80 <= r).
  { destruct (Z_lt_dec r 0x80); [|lia]. rewrite utf8_ascii in E by (unfold scalar in Hr; lia).
    injection E as -> _. lia. }
  assert (Hhi := utf8_high r Hr Hr80).
  assert (E2 : hi_prefix (b :: s2) = utf8 r ++ hi_prefix rest) by (rewrite E; apply hi_prefix_app, Hhi).
  assert (E1 : hi_prefix (b :: s1) = utf8 r ++ hi_prefix rest ++ q).
  { rewrite app_assoc, <- E2. cbn [hi_prefix]. replace (0x80 <=? b) with true by lia. rewrite Hq. reflexivity. }
  destruct (hi_prefix_split (b :: s1)) as [t Ht]. rewrite E1, <- app_assoc in Ht.
  eapply H; eauto.
Qed.

(** Compaction inside a string: same code units. *)
Lemma cs_jchars esc lax us s : jchars lax us s -> bytes_ok s ->
  exists s', jchars lax us s' /\ prefix (hi_prefix s') (hi_prefix s) /\ (lax = false -> clean esc s') /\
    forall t, cs esc true false (s ++ 34 :: t) = s' ++ cs esc true false (34 :: t).
Proof.
  induction 1 as [|r us s Hr H20 H34 H92 H IH|c u us s Hc H IH|h1 h2 h3 h4 a b c d us s Ha Hb Hc Hd H IH|b us s Hl Hb Hn H IH];
    intros Hok.
  - exists []. repeat split; try constructor. + exists []. reflexivity. + intros; apply clean_nil.
  - apply bytes_ok_app in Hok. destruct Hok as [Hokr Hok]. destruct (IH Hok) as (s' & J & P & C & E).
    destruct (utf8_head r Hr) as (b & t0 & Eb & Hb & Ht0).
    destruct (Z_lt_dec r 0x80) as [Hlt|Hge].
    + assert (Ua : utf8 r = [r]) by (apply utf8_ascii; unfold scalar in Hr; lia).
      destruct (esc && is_html r) eqn:Eh.
      * (* HTML character *)
        assert (Hh : is_html r = true) by (destruct esc; [exact Eh | discriminate]).
        exists (html_esc r ++ s'). repeat split.
        -- rewrite utf16_bmp by lia. cbn [app]. unfold html_esc. rewrite land15, shiftr4 by lia.
           replace (U16 r) with (U16 (0 * 4096 + 0 * 256 + (r / 16) * 16 + r mod 16)) by (f_equal; lia).
           cbn [app l_u00]. apply jc_hex; auto; apply hexval_hex_at; lia.
        -- exists (hi_prefix (utf8 r ++ s)). reflexivity.
        -- intros Hlax. apply clean_app; [|auto]. apply clean_asciis.
           unfold is_html in Hh. assert (r = 60 \/ r = 62 \/ r = 38) as [->|[->| ->]] by lia; vm_compute; repeat constructor; discriminate.
        -- intros t. rewrite Ua. cbn [app]. rewrite cs_cons, Eh, E, <- app_assoc. reflexivity.
      * exists (utf8 r ++ s'). repeat split.
        -- apply jc_rune; assumption.
        -- rewrite Ua. cbn [app hi_prefix]. replace (0x80 <=? r) with false by lia. exists []. reflexivity.
        -- intros Hlax. apply clean_app; [|auto]. exists [r]. split; [apply utf8_string_single, Hr|].
           constructor; [|constructor]. unfold clean_rune. split; [assumption|]. split; [lia|]. split; [lia|].
           intros ->. unfold is_html in Eh. cbn [andb] in Eh. lia.
        -- intros t. rewrite Ua. cbn [app]. rewrite cs_in_plain; auto; [rewrite E; reflexivity|].
           destruct (s ++ 34 :: t) as [|b1 [|b2 s3]]; cbn [sep3]; try reflexivity. replace (r =? 0xE2) with false by lia. reflexivity.
    + destruct ((r =? 0x2028) || (r =? 0x2029)) eqn:E2.
      * exists (sep_esc r ++ s'). repeat split.
        -- rewrite utf16_bmp by lia. cbn [app]. unfold sep_esc. apply esc_202_jchars; [lia | assumption].
        -- exists (hi_prefix (utf8 r ++ s)). reflexivity.
        -- intros Hlax. apply clean_app; [|auto]. apply clean_asciis.
           assert (r = 0x2028 \/ r = 0x2029) as [->| ->] by lia; vm_compute; repeat constructor; discriminate.
        -- intros t. assert (r = 0x2028 \/ r = 0x2029) as [->| ->] by lia.
           ++ change (utf8 0x2028) with [0xE2; 0x80; 0xA8]. cbn [app]. rewrite cs_cons.
              replace (esc && is_html 0xE2) with false by (destruct esc; reflexivity). cbn [sep3 nth skipn].
              cbn [Z.eqb Pos.eqb Z.ldiff Pos.ldiff andb]. rewrite E. reflexivity.
           ++ change (utf8 0x2029) with [0xE2; 0x80; 0xA9]. cbn [app]. rewrite cs_cons.
              replace (esc && is_html 0xE2) with false by (destruct esc; reflexivity). cbn [sep3 nth skipn].
              replace ((0xE2 =? 0xE2) && (0x80 =? 0x80) && (Z.ldiff 0xA9 1 =? 0xA8)) with true by reflexivity.
              rewrite E. reflexivity.
      * exists (utf8 r ++ s'). repeat split.
        -- apply jc_rune; assumption.
        -- assert (Hhi := utf8_high r Hr ltac:(lia)). rewrite !hi_prefix_app by assumption.
           destruct P as [q Eq]. exists q. rewrite Eq, app_assoc. reflexivity.
        -- intros Hlax. apply clean_app; [|auto]. exists [r]. split; [apply utf8_string_single, Hr|].
           constructor; [|constructor]. unfold clean_rune. repeat split; auto; intros; lia.
        -- intros t. rewrite <- app_assoc.
           assert (Hs := utf8_sep r Hr (s ++ 34 :: t)). rewrite E2 in Hs.
           assert (Hs3 : sep3 (utf8 r ++ s ++ 34 :: t) = false) by (destruct Hs as [Hs|(? & _ & Hs)]; exact Hs).
           rewrite Eb in *. cbn [app] in *.
           assert (Hb80 : 0x80 <= b).
           { assert (Hhi := utf8_high r Hr ltac:(lia)). rewrite Eb in Hhi. inversion Hhi; subst. lia. }
           rewrite cs_in_plain; auto; try lia.
           ++ rewrite cs_in_high by assumption. rewrite E, <- app_assoc. reflexivity.
           ++ unfold is_html. destruct esc; cbn [andb]; [lia | reflexivity].
  - rewrite !bytes_ok_cons in Hok. destruct Hok as (_ & _ & Hok). destruct (IH Hok) as (s' & J & P & C & E).
    destruct (jchars_low_escape c u Hc) as [Hlow Hh].
    exists (92 :: c :: s'). repeat split.
    + apply jc_esc2; assumption.
    + exists []. reflexivity.
    + intros Hlax. apply clean_cons; [lia | reflexivity |]. apply clean_cons; auto.
    + intros t. cbn [app]. rewrite cs_in_escaped by assumption. rewrite E. reflexivity.
  - rewrite !bytes_ok_cons in Hok. destruct Hok as (_ & _ & _ & _ & _ & _ & Hok). destruct (IH Hok) as (s' & J & P & C & E).
    destruct (hexval_ascii _ _ Ha) as (A1 & A2 & A3 & A4). destruct (hexval_ascii _ _ Hb) as (B1 & B2 & B3 & B4).
    destruct (hexval_ascii _ _ Hc) as (C1 & C2 & C3 & C4). destruct (hexval_ascii _ _ Hd) as (D1 & D2 & D3 & D4).
    exists (92 :: 117 :: h1 :: h2 :: h3 :: h4 :: s'). repeat split.
    + apply jc_hex; assumption.
    + exists []. reflexivity.
    + intros Hlax. repeat (apply clean_cons; [lia | assumption || reflexivity |]). auto.
    + intros t. cbn [app]. rewrite cs_in_escaped by (lia || reflexivity).
      assert (NS : forall h l, 48 <= h < 0x80 -> sep3 (h :: l) = false).
      { intros h l Hh. destruct l as [|b1 [|b2 s3]]; cbn [sep3]; try reflexivity. replace (h =? 0xE2) with false by lia. reflexivity. }
      rewrite !cs_in_plain by (auto; rewrite ?A2, ?B2, ?C2, ?D2; apply andb_false_r). rewrite E. reflexivity.
  - rewrite bytes_ok_cons in Hok. destruct Hok as (_ & Hok). destruct (IH Hok) as (s' & J & P & C & E).
    assert (Hh : 0x80 <= b) by (eapply no_rune_high; eauto; unfold is_byte in Hb; lia).
    exists (b :: s'). repeat split.
    + apply jc_raw; auto. eapply no_rune_hi_prefix; eauto.
    + cbn [hi_prefix]. replace (0x80 <=? b) with true by lia. destruct P as [q ->]. exists q. reflexivity.
    + intros Hlax. congruence.
    + intros t. cbn [app]. rewrite cs_in_plain; try lia; [rewrite E; reflexivity| |].
      * unfold is_html. destruct esc; cbn [andb]; [lia | reflexivity].
      * destruct (sep3 (b :: s ++ 34 :: t)) eqn:Es; [|reflexivity]. exfalso.
        destruct s as [|x [|y s]]; cbn [app sep3] in Es.
        -- destruct t; cbn in Es; lia.
        -- cbn in Es. lia.
        -- rewrite !bytes_ok_cons in Hok. destruct Hok as (Hx & Hy & Hok). rewrite ldiff_A8 in Es by assumption.
           assert (y = 0xA8 \/ y = 0xA9) as [->| ->] by lia.
           ++ apply (Hn 0x2028 s); [unfold scalar; lia|]. assert (b = 0xE2) by lia. assert (x = 0x80) by lia. subst. reflexivity.
           ++ apply (Hn 0x2029 s); [unfold scalar; lia|]. assert (b = 0xE2) by lia. assert (x = 0x80) by lia. subst. reflexivity.
Qed.

Lemma numchar_copied b : numchar b -> copied b.
Proof. unfold numchar, digit, copied, is_html, is_space. lia. Qed.

Lemma copied_clean esc l : Forall copied l -> clean esc l.
Proof. intros H. apply clean_asciis. eapply Forall_impl; [|exact H]. unfold copied. tauto. Qed.

Ltac copied_tac := unfold copied, is_html, is_space; lia.

Lemma cs_json esc lax :
  (forall v s, json ws lax v s -> bytes_ok s -> exists s', json no_ws lax v s' /\ (lax = false -> clean esc s') /\
     forall t, cs esc false false (s ++ t) = s' ++ cs esc false false t) /\
  (forall vs s, jelems ws lax vs s -> bytes_ok s -> exists s', jelems no_ws lax vs s' /\ (lax = false -> clean esc s') /\
     forall t, cs esc false false (s ++ t) = s' ++ cs esc false false t) /\
  (forall ms s, jmembers ws lax ms s -> bytes_ok s -> exists s', jmembers no_ws lax ms s' /\ (lax = false -> clean esc s') /\
     forall t, cs esc false false (s ++ t) = s' ++ cs esc false false t).
Proof.
  assert (W0 : no_ws []) by reflexivity.
  assert (CP : forall l v, json no_ws lax v l -> Forall copied l ->
    exists s', json no_ws lax v s' /\ (lax = false -> clean esc s') /\ forall t, cs esc false false (l ++ t) = s' ++ cs esc false false t).
  { intros l v Hj Hc. exists l. split; [exact Hj|]. split; [intros _; apply copied_clean, Hc|]. intros t. apply cs_copieds, Hc. }
  assert (QC : clean esc [34]) by (apply clean_ascii; [lia | reflexivity]).
  apply json_mutind.
  - intros _. apply CP; [constructor|]. repeat constructor; copied_tac.
  - intros _. apply CP; [constructor|]. repeat constructor; copied_tac.
  - intros _. apply CP; [constructor|]. repeat constructor; copied_tac.
  - intros l Hl _. apply CP; [constructor; exact Hl|]. eapply Forall_impl; [apply numchar_copied | apply jnumber_chars, Hl].
  - intros us s Hs Hok. rewrite bytes_ok_cons, bytes_ok_app in Hok. destruct Hok as (_ & Hok & _).
    destruct (cs_jchars esc lax us s Hs Hok) as (s' & J & _ & C & E).
    exists (34 :: s' ++ [34]). split; [constructor; exact J|]. split.
    + intros Hlax. change (34 :: s' ++ [34]) with ([34] ++ s' ++ [34]). repeat apply clean_app; auto.
    + intros t. cbn [app]. rewrite cs_quote_open, <- !app_assoc. cbn [app]. rewrite E, cs_quote_close. reflexivity.
  - intros w Hw _. exists [91; 93]. split; [apply (j_arr0 no_ws lax []); exact W0|]. split.
    + intros _. apply copied_clean. repeat constructor; copied_tac.
    + intros t. cbn [app]. rewrite cs_copied by copied_tac. rewrite <- app_assoc, cs_ws by exact Hw. cbn [app].
      rewrite cs_copied by copied_tac. reflexivity.
  - intros vs s Hs IH Hok. rewrite bytes_ok_cons, bytes_ok_app in Hok. destruct Hok as (_ & Hok & _).
    destruct (IH Hok) as (s' & J & C & E). exists (91 :: s' ++ [93]). split; [constructor; exact J|]. split.
    + intros Hlax. change (91 :: s' ++ [93]) with ([91] ++ s' ++ [93]).
      apply clean_app; [apply clean_ascii; [lia | reflexivity]|]. apply clean_app; [auto | apply clean_ascii; [lia | reflexivity]].
    + intros t. cbn [app]. rewrite cs_copied by copied_tac. rewrite <- !app_assoc, E. cbn [app].
      rewrite cs_copied by copied_tac. reflexivity.
  - intros w Hw _. exists [123; 125]. split; [apply (j_obj0 no_ws lax []); exact W0|]. split.
    + intros _. apply copied_clean. repeat constructor; copied_tac.
    + intros t. cbn [app]. rewrite cs_copied by copied_tac. rewrite <- app_assoc, cs_ws by exact Hw. cbn [app].
      rewrite cs_copied by copied_tac. reflexivity.
  - intros vs s Hs IH Hok. rewrite bytes_ok_cons, bytes_ok_app in Hok. destruct Hok as (_ & Hok & _).
    destruct (IH Hok) as (s' & J & C & E). exists (123 :: s' ++ [125]). split; [constructor; exact J|]. split.
    + intros Hlax. change (123 :: s' ++ [125]) with ([123] ++ s' ++ [125]).
      apply clean_app; [apply clean_ascii; [lia | reflexivity]|]. apply clean_app; [auto | apply clean_ascii; [lia | reflexivity]].
    + intros t. cbn [app]. rewrite cs_copied by copied_tac. rewrite <- !app_assoc, E. cbn [app].
      rewrite cs_copied by copied_tac. reflexivity.
  - intros w1 v s w2 Hw1 Hs IH Hw2 Hok. rewrite !bytes_ok_app in Hok. destruct Hok as (_ & Hok & _).
    destruct (IH Hok) as (s' & J & C & E). exists ([] ++ s' ++ []). split; [constructor; auto|]. split.
    + rewrite app_nil_r. exact C.
    + intros t. rewrite <- !app_assoc. rewrite cs_ws, E, cs_ws by assumption. reflexivity.
  - intros w1 v s w2 vs t Hw1 Hs IH Hw2 Ht IHt Hok. rewrite !bytes_ok_app, bytes_ok_cons in Hok. destruct Hok as (_ & Hok & _ & _ & Hok2).
    destruct (IH Hok) as (s' & J & C & E). destruct (IHt Hok2) as (t' & J2 & C2 & E2).
    exists ([] ++ s' ++ [] ++ 44 :: t'). split; [constructor; auto|]. split.
    + intros Hlax. cbn [app]. apply clean_app; [auto|]. apply clean_cons; [lia | reflexivity | auto].
    + intros q. repeat (rewrite <- !app_assoc; cbn [app]). rewrite cs_ws, E, cs_ws by assumption.
      rewrite cs_copied by copied_tac. rewrite E2. reflexivity.
  - intros w1 k ks w2 w3 v s w4 Hw1 Hk Hw2 Hw3 Hs IH Hw4 Hok.
    rewrite bytes_ok_app, bytes_ok_cons, bytes_ok_app, bytes_ok_cons, bytes_ok_app, bytes_ok_cons, !bytes_ok_app in Hok.
    destruct Hok as (_ & _ & Hokk & _ & _ & _ & _ & Hok & _).
    destruct (IH Hok) as (s' & J & C & E). destruct (cs_jchars esc lax k ks Hk Hokk) as (k' & Jk & _ & Ck & Ek).
    exists ([] ++ 34 :: k' ++ 34 :: [] ++ 58 :: [] ++ s' ++ []). split; [constructor; auto|]. split.
    + intros Hlax. cbn [app]. rewrite app_nil_r. apply clean_cons; [lia | reflexivity|]. apply clean_app; [auto|].
      apply clean_cons; [lia | reflexivity|]. apply clean_cons; [lia | reflexivity | auto].
    + intros q. repeat (rewrite <- !app_assoc; cbn [app]). rewrite cs_ws by assumption. rewrite cs_quote_open, Ek, cs_quote_close.
      rewrite cs_ws by assumption. rewrite cs_copied by copied_tac. rewrite cs_ws, E, cs_ws by assumption. reflexivity.
  - intros w1 k ks w2 w3 v s w4 ms t Hw1 Hk Hw2 Hw3 Hs IH Hw4 Ht IHt Hok.
    rewrite bytes_ok_app, bytes_ok_cons, bytes_ok_app, bytes_ok_cons, bytes_ok_app, bytes_ok_cons, !bytes_ok_app, bytes_ok_cons in Hok.
    destruct Hok as (_ & _ & Hokk & _ & _ & _ & _ & Hok & _ & _ & Hok2).
    destruct (IH Hok) as (s' & J & C & E). destruct (cs_jchars esc lax k ks Hk Hokk) as (k' & Jk & _ & Ck & Ek).
    destruct (IHt Hok2) as (t' & J2 & C2 & E2).
    exists ([] ++ 34 :: k' ++ 34 :: [] ++ 58 :: [] ++ s' ++ [] ++ 44 :: t'). split; [constructor; auto|]. split.
    + intros Hlax. cbn [app]. apply clean_cons; [lia | reflexivity|]. apply clean_app; [auto|].
      apply clean_cons; [lia | reflexivity|]. apply clean_cons; [lia | reflexivity|]. apply clean_app; [auto|].
      apply clean_cons; [lia | reflexivity | auto].
    + intros q. repeat (rewrite <- !app_assoc; cbn [app]). rewrite cs_ws by assumption. rewrite cs_quote_open, Ek, cs_quote_close.
      rewrite cs_ws by assumption. rewrite cs_copied by copied_tac. rewrite cs_ws, E, cs_ws by assumption.
      rewrite cs_copied by copied_tac. rewrite E2. reflexivity.
Qed.

(** The whole text. *)
Lemma cs_text esc lax v s : json_text lax v s -> bytes_ok s ->
  exists s', cs esc false false s = s' /\ json no_ws lax v s' /\ (lax = false -> clean esc s').
Proof.
  intros (w1 & t & w2 & -> & Hw1 & Hw2 & Ht) Hok. rewrite !bytes_ok_app in Hok. destruct Hok as (_ & Hok & _).
  destruct (proj1 (cs_json esc lax) v t Ht Hok) as (s' & J & C & E).
  exists s'. split; [|auto]. rewrite cs_ws, E by assumption.
  rewrite <- (app_nil_r w2), cs_ws by assumption. cbn [cs]. apply app_nil_r.
Qed.
