(** UTF-8: specification (RFC 3629) and Go's utf8.DecodeRune. *)
From Verif Require Import Base.

(** ** Specification *)

(** Unicode scalar values. *)
Definition scalar (r : Z) : Prop := 0 <= r < 0xD800 \/ 0xE000 <= r <= 0x10FFFF.

(** The UTF-8 encoding of a scalar value (RFC 3629, section 3). *)
Definition utf8 (r : Z) : bytes :=
  if r <? 0x80 then [r]
  else if r <? 0x800 then [0xC0 + r / 64; 0x80 + r mod 64]
  else if r <? 0x10000 then [0xE0 + r / 4096; 0x80 + (r / 64) mod 64; 0x80 + r mod 64]
  else [0xF0 + r / 262144; 0x80 + (r / 4096) mod 64; 0x80 + (r / 64) mod 64; 0x80 + r mod 64].

(** A byte string is valid UTF-8 when it is a concatenation of encodings. *)
Inductive utf8_string : bytes -> list Z -> Prop :=
| us_nil : utf8_string [] []
| us_cons r s rs : scalar r -> utf8_string s rs -> utf8_string (utf8 r ++ s) (r :: rs).
Definition valid_utf8 (s : bytes) : Prop := exists rs, utf8_string s rs.

(** No scalar value's encoding starts [s]. *)
Definition no_rune (s : bytes) : Prop := forall r rest, scalar r -> s <> utf8 r ++ rest.

(** Decomposition of an arbitrary byte string: maximal use of encodings from
    the left, any other byte stands alone ([inr]). *)
Inductive segments : bytes -> list (Z + Z) -> Prop :=
| sg_nil : segments [] []
| sg_rune r s us : scalar r -> segments s us -> segments (utf8 r ++ s) (inl r :: us)
| sg_bad b s us : no_rune (b :: s) -> segments s us -> segments (b :: s) (inr b :: us).

(** ** utf8.DecodeRune

    Documented contract of unicode/utf8.DecodeRune (used at encode.go:854):
    (RuneError, 0) on empty input, (RuneError, 1) if the encoding is invalid,
    else the rune and its width.  Invalid means: wrong continuation byte,
    overlong, surrogate, above U+10FFFF or truncated. *)
Definition rune_error : Z := 0xFFFD.
Definition between (lo hi b : Z) : bool := (lo <=? b) && (b <=? hi).
Definition cont (b : Z) : bool := between 0x80 0xBF b.

Definition decode_rune (p : bytes) : Z * nat :=
  match p with
  | [] => (rune_error, 0%nat)
  | b0 :: p1 =>
    if b0 <? 0x80 then (b0, 1%nat)
    else match p1 with
    | [] => (rune_error, 1%nat)
    | b1 :: p2 =>
      if between 0xC2 0xDF b0 then
        if cont b1 then ((b0 - 0xC0) * 64 + (b1 - 0x80), 2%nat) else (rune_error, 1%nat)
      else
      let lo := if b0 =? 0xE0 then 0xA0 else if b0 =? 0xF0 then 0x90 else 0x80 in
      let hi := if b0 =? 0xED then 0x9F else if b0 =? 0xF4 then 0x8F else 0xBF in
      if between 0xE0 0xEF b0 then
        match p2 with
        | b2 :: _ =>
          if between lo hi b1 && cont b2
          then ((b0 - 0xE0) * 4096 + (b1 - 0x80) * 64 + (b2 - 0x80), 3%nat)
          else (rune_error, 1%nat)
        | [] => (rune_error, 1%nat)
        end
      else if between 0xF0 0xF4 b0 then
        match p2 with
        | b2 :: b3 :: _ =>
          if between lo hi b1 && cont b2 && cont b3
          then ((b0 - 0xF0) * 262144 + (b1 - 0x80) * 4096 + (b2 - 0x80) * 64 + (b3 - 0x80), 4%nat)
          else (rune_error, 1%nat)
        | _ => (rune_error, 1%nat)
        end
      else (rune_error, 1%nat)
    end
  end.

(** ** Facts *)

Lemma utf8_nonempty r : utf8 r <> [].
Proof. unfold utf8. repeat match goal with |- context[if ?c then _ else _] => destruct c end; discriminate. Qed.

Lemma utf8_length r : (1 <= length (utf8 r) <= 4)%nat.
Proof. unfold utf8. repeat match goal with |- context[if ?c then _ else _] => destruct c end; simpl; lia. Qed.

Lemma utf8_bytes r : scalar r -> bytes_ok (utf8 r).
Proof.
  unfold scalar, utf8, bytes_ok, is_byte. intros H.
  destruct (r <? 0x80) eqn:E1; [repeat constructor; lia|].
  destruct (r <? 0x800) eqn:E2; [repeat constructor; lia|].
  destruct (r <? 0x10000) eqn:E3; repeat constructor; lia.
Qed.

(** Non-ASCII scalars have only bytes >= 0x80. *)
Lemma utf8_high r : scalar r -> 0x80 <= r -> Forall (fun b => 0x80 <= b < 256) (utf8 r).
Proof.
  unfold scalar, utf8. intros H Hr.
  destruct (r <? 0x80) eqn:E1; [lia|].
  destruct (r <? 0x800) eqn:E2; [repeat constructor; lia|].
  destruct (r <? 0x10000) eqn:E3; repeat constructor; lia.
Qed.

Lemma utf8_ascii r : 0 <= r < 0x80 -> utf8 r = [r].
Proof. unfold utf8. intros H. destruct (r <? 0x80) eqn:E; [reflexivity | lia]. Qed.

(** The decoder reads back an encoding, whatever follows. *)
Lemma decode_rune_utf8 r rest : scalar r -> decode_rune (utf8 r ++ rest) = (r, length (utf8 r)).
Proof.
  unfold scalar, utf8. intros H.
  destruct (r <? 0x80) eqn:E1.
  { cbn [app length decode_rune]. rewrite E1. reflexivity. }
  destruct (r <? 0x800) eqn:E2.
  { cbn [app length decode_rune]. unfold between, cont, between.
    replace (0xC0 + r / 64 <? 0x80) with false by lia.
    replace ((0xC2 <=? 0xC0 + r / 64) && (0xC0 + r / 64 <=? 0xDF)) with true by lia.
    replace ((0x80 <=? 0x80 + r mod 64) && (0x80 + r mod 64 <=? 0xBF)) with true by lia.
    f_equal. lia. }
  destruct (r <? 0x10000) eqn:E3.
  { cbn [app length decode_rune]. unfold between, cont, between.
    replace (0xE0 + r / 4096 <? 0x80) with false by lia.
    replace ((0xC2 <=? 0xE0 + r / 4096) && (0xE0 + r / 4096 <=? 0xDF)) with false by lia.
    replace ((0xE0 <=? 0xE0 + r / 4096) && (0xE0 + r / 4096 <=? 0xEF)) with true by lia.
    cbv zeta.
    match goal with |- (if ?c then _ else _) = _ => assert (Hc : c = true) end.
    { destruct (0xE0 + r / 4096 =? 0xE0) eqn:F1, (0xE0 + r / 4096 =? 0xF0) eqn:F2,
        (0xE0 + r / 4096 =? 0xED) eqn:F3, (0xE0 + r / 4096 =? 0xF4) eqn:F4; lia. }
    rewrite Hc. f_equal. lia. }
  { cbn [app length decode_rune]. unfold between, cont, between.
    replace (0xF0 + r / 262144 <? 0x80) with false by lia.
    replace ((0xC2 <=? 0xF0 + r / 262144) && (0xF0 + r / 262144 <=? 0xDF)) with false by lia.
    replace ((0xE0 <=? 0xF0 + r / 262144) && (0xF0 + r / 262144 <=? 0xEF)) with false by lia.
    replace ((0xF0 <=? 0xF0 + r / 262144) && (0xF0 + r / 262144 <=? 0xF4)) with true by lia.
    cbv zeta.
    match goal with |- (if ?c then _ else _) = _ => assert (Hc : c = true) end.
    { destruct (0xF0 + r / 262144 =? 0xE0) eqn:F1, (0xF0 + r / 262144 =? 0xF0) eqn:F2,
        (0xF0 + r / 262144 =? 0xED) eqn:F3, (0xF0 + r / 262144 =? 0xF4) eqn:F4; lia. }
    rewrite Hc. f_equal. lia. }
Qed.

(** Whatever the decoder returns other than (RuneError,1) is a real encoding. *)
Lemma decode_rune_sound p r n : bytes_ok p -> p <> [] -> decode_rune p = (r, n) ->
  (r = rune_error /\ n = 1%nat) \/
  (scalar r /\ firstn n p = utf8 r /\ length (utf8 r) = n /\ p = utf8 r ++ skipn n p).
Proof.
  intros Hok Hne.
  assert (Aux : forall r n, firstn n p = utf8 r -> (n <= length p)%nat ->
            length (utf8 r) = n /\ p = utf8 r ++ skipn n p).
  { intros r' n' Hf Hn. split.
    - rewrite <- Hf, firstn_length. lia.
    - rewrite <- Hf. symmetry. apply firstn_skipn. }
  destruct p as [|b0 p1]; [congruence|]. clear Hne.
  inversion Hok as [|? ? Hb0 Hok1]; subst. unfold is_byte in Hb0.
  unfold decode_rune.
  destruct (b0 <? 0x80) eqn:E0.
  { intros H; injection H as <- <-. right. split; [unfold scalar; lia|].
    assert (F : firstn 1 (b0 :: p1) = utf8 b0) by (unfold utf8; rewrite E0; reflexivity).
    split; [exact F | apply Aux; [exact F | simpl; lia]]. }
  destruct p1 as [|b1 p2]; [intros H; injection H as <- <-; left; auto|].
  inversion Hok1 as [|? ? Hb1 Hok2]; subst. unfold is_byte in Hb1.
  unfold between, cont, between.
  destruct ((0xC2 <=? b0) && (b0 <=? 0xDF)) eqn:E1.
  { destruct ((0x80 <=? b1) && (b1 <=? 0xBF)) eqn:E2;
      intros H; injection H as <- <-; [right | left; auto].
    split; [unfold scalar; lia|].
    match goal with |- firstn _ _ = utf8 ?x /\ _ =>
      assert (F : firstn 2 (b0 :: b1 :: p2) = utf8 x) end.
    { unfold utf8. cbn [firstn].
      replace ((b0 - 0xC0) * 64 + (b1 - 0x80) <? 0x80) with false by lia.
      replace ((b0 - 0xC0) * 64 + (b1 - 0x80) <? 0x800) with true by lia.
      repeat (f_equal; try lia). }
    split; [exact F | apply Aux; [exact F | simpl; lia]]. }
  destruct ((0xE0 <=? b0) && (b0 <=? 0xEF)) eqn:E3.
  { destruct p2 as [|b2 p3]; [intros H; injection H as <- <-; left; auto|].
    inversion Hok2 as [|? ? Hb2 Hok3]; subst. unfold is_byte in Hb2.
    match goal with |- (if ?c then _ else _) = _ -> _ => destruct c eqn:E4 end;
      intros H; injection H as <- <-; [right | left; auto].
    assert (0x80 <= b1 <= 0xBF /\ 0x80 <= b2 <= 0xBF /\ (b0 = 0xE0 -> 0xA0 <= b1) /\ (b0 = 0xED -> b1 <= 0x9F)).
    { destruct (b0 =? 0xE0) eqn:F1, (b0 =? 0xF0) eqn:F2, (b0 =? 0xED) eqn:F3, (b0 =? 0xF4) eqn:F4; lia. }
    split; [unfold scalar; lia|].
    match goal with |- firstn _ _ = utf8 ?x /\ _ =>
      assert (F : firstn 3 (b0 :: b1 :: b2 :: p3) = utf8 x) end.
    { unfold utf8. cbn [firstn].
      set (x := (b0 - 0xE0) * 4096 + (b1 - 0x80) * 64 + (b2 - 0x80)) in *.
      replace (x <? 0x80) with false by lia.
      replace (x <? 0x800) with false by lia.
      replace (x <? 0x10000) with true by lia.
      repeat (f_equal; try lia). }
    split; [exact F | apply Aux; [exact F | simpl; lia]]. }
  destruct ((0xF0 <=? b0) && (b0 <=? 0xF4)) eqn:E5.
  { destruct p2 as [|b2 [|b3 p4]]; try (intros H; injection H as <- <-; left; auto; fail).
    inversion Hok2 as [|? ? Hb2 Hok3]; subst. unfold is_byte in Hb2.
    inversion Hok3 as [|? ? Hb3 Hok4]; subst. unfold is_byte in Hb3.
    match goal with |- (if ?c then _ else _) = _ -> _ => destruct c eqn:E4 end;
      intros H; injection H as <- <-; [right | left; auto].
    assert (0x80 <= b1 <= 0xBF /\ 0x80 <= b2 <= 0xBF /\ 0x80 <= b3 <= 0xBF /\
            (b0 = 0xF0 -> 0x90 <= b1) /\ (b0 = 0xF4 -> b1 <= 0x8F)).
    { destruct (b0 =? 0xE0) eqn:F1, (b0 =? 0xF0) eqn:F2, (b0 =? 0xED) eqn:F3, (b0 =? 0xF4) eqn:F4; lia. }
    split; [unfold scalar; lia|].
    match goal with |- firstn _ _ = utf8 ?x /\ _ =>
      assert (F : firstn 4 (b0 :: b1 :: b2 :: b3 :: p4) = utf8 x) end.
    { unfold utf8. cbn [firstn].
      set (x := (b0 - 0xF0) * 262144 + (b1 - 0x80) * 4096 + (b2 - 0x80) * 64 + (b3 - 0x80)) in *.
      replace (x <? 0x80) with false by lia.
      replace (x <? 0x800) with false by lia.
      replace (x <? 0x10000) with false by lia.
      repeat (f_equal; try lia). }
    split; [exact F | apply Aux; [exact F | simpl; lia]]. }
  intros H; injection H as <- <-. left; auto.
Qed.

(** When the decoder reports (RuneError,1), no encoding starts the input. *)
Lemma decode_rune_bad p : decode_rune p = (rune_error, 1%nat) -> no_rune p.
Proof.
  intros H r rest Hr ->. rewrite decode_rune_utf8 in H by assumption.
  injection H as -> H. vm_compute in H. discriminate.
Qed.

Lemma no_rune_decode p : bytes_ok p -> p <> [] -> no_rune p -> decode_rune p = (rune_error, 1%nat).
Proof.
  intros Hok Hne Hnr. destruct (decode_rune p) as [r n] eqn:E.
  destruct (decode_rune_sound p r n Hok Hne E) as [[-> ->]|(Hs & _ & _ & Hp)]; [reflexivity|].
  exfalso. eapply Hnr; eauto.
Qed.

Lemma utf8_inj_prefix r1 r2 s1 s2 : scalar r1 -> scalar r2 ->
  utf8 r1 ++ s1 = utf8 r2 ++ s2 -> r1 = r2 /\ s1 = s2.
Proof.
  intros H1 H2 E.
  assert (D1 := decode_rune_utf8 r1 s1 H1). rewrite E, decode_rune_utf8 in D1 by assumption.
  injection D1 as -> _. split; [reflexivity|]. now apply app_inv_head in E.
Qed.

(** Every byte string has exactly one decomposition. *)
Lemma segments_total s : bytes_ok s -> exists us, segments s us.
Proof.
  induction s as [s IH] using list_len_ind. intros Hok.
  destruct s as [|b s']; [exists []; constructor|].
  destruct (decode_rune (b :: s')) as [r n] eqn:E.
  destruct (decode_rune_sound (b :: s') r n Hok ltac:(discriminate) E) as [[-> ->]|(Hs & _ & Hl & Hp)].
  - destruct (IH s') as [us Hus]; [simpl; lia | inversion Hok; assumption|].
    exists (inr b :: us). constructor; [apply decode_rune_bad, E | exact Hus].
  - assert (1 <= n)%nat by (rewrite <- Hl; apply utf8_length).
    destruct (IH (skipn n (b :: s'))) as [us Hus].
    + rewrite skipn_length. cbn [length]; lia.
    + apply Forall_skipn, Hok.
    + exists (inl r :: us). rewrite Hp. constructor; assumption.
Qed.

Lemma segments_det s us1 us2 : segments s us1 -> segments s us2 -> us1 = us2.
Proof.
  intros H1; revert us2. induction H1 as [|r s us Hr H1 IH|b s us Hn H1 IH]; intros us2 H2.
  - inversion H2; subst; [reflexivity|]. exfalso.
    match goal with H : utf8 ?x ++ _ = [] |- _ => destruct (utf8 x) eqn:E; [eapply utf8_nonempty; eauto | discriminate] end.
  - inversion H2 as [E|r' s' us' Hr' H2' E|b s' us' Hn' H2' E]; subst.
    + destruct (utf8 r) eqn:E'; [exfalso; eapply utf8_nonempty; eauto | discriminate].
    + apply utf8_inj_prefix in E; try assumption. destruct E as [-> ->]. f_equal; auto.
    + exfalso. eapply (Hn' r); eauto.
  - inversion H2 as [E|r' s' us' Hr' H2' E|b' s' us' Hn' H2' E]; subst.
    + exfalso. eapply (Hn r'); eauto.
    + f_equal; auto.
Qed.

(** A valid UTF-8 string decomposes without stray bytes, and conversely. *)
Lemma valid_utf8_segments s rs : utf8_string s rs -> segments s (map inl rs).
Proof. induction 1; simpl; constructor; assumption. Qed.

Lemma segments_valid s rs : segments s (map inl rs) -> utf8_string s rs.
Proof.
  intros H. remember (map inl rs) as us eqn:E. revert rs E.
  induction H as [|r s us Hr H IH|b s us Hn H IH]; intros rs E;
    destruct rs as [|r0 rs]; simpl in E; try discriminate.
  - constructor.
  - injection E as -> ->. constructor; auto.
Qed.

Lemma utf8_string_app s1 rs1 s2 rs2 : utf8_string s1 rs1 -> utf8_string s2 rs2 ->
  utf8_string (s1 ++ s2) (rs1 ++ rs2).
Proof. induction 1; simpl; intros; [assumption|]. rewrite <- app_assoc. constructor; auto. Qed.

Lemma valid_utf8_app s1 s2 : valid_utf8 s1 -> valid_utf8 s2 -> valid_utf8 (s1 ++ s2).
Proof. intros [r1 H1] [r2 H2]. exists (r1 ++ r2). apply utf8_string_app; assumption. Qed.

Lemma valid_utf8_ascii s : Forall (fun b => 0 <= b < 0x80) s -> valid_utf8 s.
Proof.
  induction 1 as [|b s Hb H [rs IH]]; [exists []; constructor|].
  exists (b :: rs). change (b :: s) with ([b] ++ s). rewrite <- (utf8_ascii b) by assumption.
  constructor; [unfold scalar; lia | assumption].
Qed.

Lemma no_rune_high b s : no_rune (b :: s) -> 0 <= b -> 0x80 <= b.
Proof.
  intros H Hb. destruct (Z_lt_dec b 0x80) as [Hlt|]; [|lia]. exfalso.
  apply (H b s); [unfold scalar; lia|]. rewrite utf8_ascii by lia. reflexivity.
Qed.
