(** base64 of bytes: specification (RFC 4648 section 4) and correctness. *)
From Verif Require Import Base Base64Model.

(** The value of a character of the alphabet. *)
Inductive b64_digit : Z -> Z -> Prop :=
| bd_upper n : 0 <= n < 26 -> b64_digit (65 + n) n
| bd_lower n : 0 <= n < 26 -> b64_digit (97 + n) (26 + n)
| bd_digit n : 0 <= n < 10 -> b64_digit (48 + n) (52 + n)
| bd_plus : b64_digit 43 62
| bd_slash : b64_digit 47 63.

(** [base64_text s b]: s is the padded base64 text of the bytes b; unused bits
    of the last digit are zero. *)
Inductive base64_text : bytes -> bytes -> Prop :=
| bt_nil : base64_text [] []
| bt_three c1 c2 c3 c4 d1 d2 d3 d4 x y z s b :
    b64_digit c1 d1 -> b64_digit c2 d2 -> b64_digit c3 d3 -> b64_digit c4 d4 -> is_byte x -> is_byte y -> is_byte z ->
    x * 65536 + y * 256 + z = d1 * 262144 + d2 * 4096 + d3 * 64 + d4 -> base64_text s b ->
    base64_text (c1 :: c2 :: c3 :: c4 :: s) (x :: y :: z :: b)
| bt_two c1 c2 c3 d1 d2 d3 x y :
    b64_digit c1 d1 -> b64_digit c2 d2 -> b64_digit c3 d3 -> is_byte x -> is_byte y ->
    x * 65536 + y * 256 = d1 * 262144 + d2 * 4096 + d3 * 64 -> base64_text [c1; c2; c3; 61] [x; y]
| bt_one c1 c2 d1 d2 x :
    b64_digit c1 d1 -> b64_digit c2 d2 -> is_byte x ->
    x * 65536 = d1 * 262144 + d2 * 4096 -> base64_text [c1; c2; 61; 61] [x].

Lemma b64_char_digit n : 0 <= n < 64 -> b64_digit (b64_char n) n.
Proof.
  intros Hn. assert (Hall : Forall (fun n => exists k, (n = k /\ 0 <= k < 26 /\ b64_char n = 65 + k) \/ (n = 26 + k /\ 0 <= k < 26 /\ b64_char n = 97 + k) \/
     (n = 52 + k /\ 0 <= k < 10 /\ b64_char n = 48 + k) \/ (n = 62 /\ b64_char n = 43) \/ (n = 63 /\ b64_char n = 47)) (map Z.of_nat (seq 0 64))).
  { cbn [seq map Z.of_nat Pos.of_succ_nat Pos.succ].
    repeat (apply Forall_cons; [match goal with |- exists k, (?n = _ /\ _) \/ _ =>
       first [exists n; left; split; [reflexivity|split; [lia|reflexivity]] |
              exists (n - 26); right; left; split; [reflexivity|split; [lia|reflexivity]] |
              exists (n - 52); right; right; left; split; [reflexivity|split; [lia|reflexivity]] |
              exists 0; right; right; right; left; split; reflexivity | exists 0; right; right; right; right; split; reflexivity] end|]).
    apply Forall_nil. }
  rewrite Forall_forall in Hall. destruct (Hall n) as (k & [(E & K & ->)|[(E & K & ->)|[(E & K & ->)|[(E & ->)|(E & ->)]]]]).
  - apply in_map_iff. exists (Z.to_nat n). split; [lia|]. apply in_seq. lia.
  - rewrite E. constructor. lia.
  - rewrite E. constructor. lia.
  - rewrite E. constructor. lia.
  - rewrite E. constructor.
  - rewrite E. constructor.
Qed.

Lemma land63 n : Z.land n 63 = n mod 64.
Proof. change 63 with (Z.ones 6). rewrite Z.land_ones by lia. reflexivity. Qed.

Lemma shl n k : 0 <= k -> Z.shiftl n k = n * 2 ^ k.
Proof. intros. apply Z.shiftl_mul_pow2. lia. Qed.
Lemma shr n k : 0 <= k -> Z.shiftr n k = n / 2 ^ k.
Proof. intros. apply Z.shiftr_div_pow2. lia. Qed.

Theorem base64_correct b : bytes_ok b -> base64_text (base64 b) b.
Proof.
  remember (length b) as n eqn:En. revert b En. induction n as [n IH] using lt_wf_ind. intros b -> Hb.
  destruct b as [|x [|y [|z b]]]; cbn [base64]; [constructor| | |].
  - inversion Hb as [|? ? X _]; subst. rewrite !land63, !shl, !shr by lia. cbn [Z.pow Z.pow_pos Pos.iter Z.mul Pos.mul].
    eapply bt_one; try (apply b64_char_digit; lia); [exact X|]. unfold is_byte in X. lia.
  - inversion Hb as [|? ? X Hb1]; subst. inversion Hb1 as [|? ? Y _]; subst. rewrite !land63, !shl, !shr by lia.
    eapply bt_two; try (apply b64_char_digit; lia); [exact X | exact Y|]. unfold is_byte in X, Y. change (2 ^ 16) with 65536. change (2 ^ 8) with 256.
    change (2 ^ 18) with 262144. change (2 ^ 12) with 4096. change (2 ^ 6) with 64. lia.
  - inversion Hb as [|? ? X Hb1]; subst. inversion Hb1 as [|? ? Y Hb2]; subst. inversion Hb2 as [|? ? W Hb3]; subst. rewrite !land63, !shl, !shr by lia.
    eapply bt_three; try (apply b64_char_digit; lia); [exact X | exact Y | exact W| |].
    + unfold is_byte in X, Y, W. change (2 ^ 16) with 65536. change (2 ^ 8) with 256.
      change (2 ^ 18) with 262144. change (2 ^ 12) with 4096. change (2 ^ 6) with 64. lia.
    + apply (IH (length b)); [cbn; lia | reflexivity | exact Hb3].
Qed.

Lemma b64_digit_det c d1 d2 : b64_digit c d1 -> b64_digit c d2 -> d1 = d2.
Proof. intros H1 H2. inversion H1; inversion H2; lia. Qed.

Lemma b64_digit_range c d : b64_digit c d -> 0 <= d < 64 /\ (c = 43 \/ c = 47 \/ 48 <= c <= 57 \/ 65 <= c <= 90 \/ 97 <= c <= 122).
Proof. intros H. inversion H; lia. Qed.

(** A text is the base64 of one byte string only. *)
Theorem base64_text_det s b1 b2 : base64_text s b1 -> base64_text s b2 -> b1 = b2.
Proof.
  intros HA. revert b2. induction HA; intros b2 HB; inversion HB; subst; try reflexivity;
    repeat match goal with A : b64_digit ?c ?d, B : b64_digit ?c ?e |- _ => pose proof (b64_digit_det _ _ _ A B); subst; clear B end;
    repeat match goal with A : b64_digit 61 _ |- _ => exfalso; apply b64_digit_range in A; lia end;
    repeat match goal with A : b64_digit _ _ |- _ => apply b64_digit_range in A end; unfold is_byte in *.
  - f_equal; [lia|]. f_equal; [lia|]. f_equal; [lia|]. apply IHHA. assumption.
  - f_equal; [lia|]. f_equal. lia.
  - f_equal. lia.
Qed.

Lemma base64_text_chars s b : base64_text s b -> Forall (fun c => c = 43 \/ c = 47 \/ c = 61 \/ 48 <= c <= 57 \/ 65 <= c <= 90 \/ 97 <= c <= 122) s.
Proof.
  induction 1; repeat match goal with A : b64_digit _ _ |- _ => apply b64_digit_range in A end; repeat (apply Forall_cons; [lia|]); auto.
Qed.

Lemma base64_text_length s b : base64_text s b -> Z.of_nat (length s) = b64_len (Z.of_nat (length b)).
Proof.
  unfold b64_len. induction 1; cbn [length] in *; rewrite ?Nat2Z.inj_succ in *; rewrite Z.quot_div_nonneg in * by lia; lia.
Qed.
