(** IEEE 754 binary32 and binary64, in integers: the finite values, rounding to
    the nearest value with ties to even, and the interval of numbers that round
    to a given value. *)
From Verif Require Import Base.

(** Precision and exponents of float64 and float32: a value is M * 2^e with
    |M| < 2^prec, emin <= e <= emax, and M as large as possible. *)
Definition prec (is64 : bool) : Z := if is64 then 53 else 24.
Definition emin (is64 : bool) : Z := if is64 then -1074 else -149.
Definition emax (is64 : bool) : Z := if is64 then 971 else 104.

Definition float_of (b : bool) (f : Z * Z) : Prop :=
  emin b <= snd f <= emax b /\ Z.abs (fst f) < 2 ^ prec b /\ (2 ^ (prec b - 1) <= Z.abs (fst f) \/ snd f = emin b).

(** The value in units of 2^emin. *)
Definition units (b : bool) (f : Z * Z) : Z := fst f * 2 ^ (snd f - emin b).

(** |n / d - f|, times d * 2^-emin. *)
Definition gap (b : bool) (n d : Z) (f : Z * Z) : Z := Z.abs (n * 2 ^ (- emin b) - units b f * d).

(** n / d rounds to f: no value is nearer, of two equally near ones the one
    with an even M is taken, and n / d is below the overflow limit. *)
Definition rounds (b : bool) (n d : Z) (f : Z * Z) : Prop :=
  float_of b f /\
  (forall g, float_of b g -> gap b n d f <= gap b n d g /\ (gap b n d f = gap b n d g -> g = f \/ Z.even (fst f) = true)) /\
  Z.abs n < (2 ^ (prec b + 1) - 1) * 2 ^ (emax b - 1) * d.

Lemma prec_pos b : 2 <= prec b. Proof. destruct b; cbn; lia. Qed.
Lemma emax_emin b : emin b < 0 /\ 0 < emax b. Proof. destruct b; cbn; lia. Qed.
Lemma pow2_pos k : 0 <= k -> 0 < 2 ^ k. Proof. intros. apply Z.pow_pos_nonneg; lia. Qed.
Lemma pow10_pos k : 0 <= k -> 0 < 10 ^ k. Proof. intros. apply Z.pow_pos_nonneg; lia. Qed.
Lemma pow2_S k : 0 <= k -> 2 ^ (k + 1) = 2 * 2 ^ k. Proof. intros. rewrite Z.pow_add_r by lia. lia. Qed.
Lemma pow2_prec b : 2 ^ prec b = 2 * 2 ^ (prec b - 1).
Proof. replace (prec b) with (prec b - 1 + 1) at 1 by lia. apply pow2_S. assert (H := prec_pos b). lia. Qed.
Lemma even_half b : Z.even (2 ^ (prec b - 1)) = true. Proof. destruct b; reflexivity. Qed.

(** The spacing of the values around f, above and below. *)
Lemma above b f g : float_of b f -> float_of b g -> 0 <= fst f -> units b f < units b g -> units b f + 2 ^ (snd f - emin b) <= units b g.
Proof.
  destruct f as [m e], g as [m' e']. unfold float_of, units. cbn [fst snd]. intros (E & A & C) (E' & A' & C') Hm Hl.
  set (j := e - emin b) in *. set (j' := e' - emin b) in *.
  destruct (Z_le_gt_dec j j') as [L|L].
  - replace j' with (j + (j' - j)) in * by lia. rewrite Z.pow_add_r in * by lia.
    assert (0 < 2 ^ j) by (apply pow2_pos; lia). assert (m < m' * 2 ^ (j' - j)) by nia. nia.
  - exfalso. assert (0 < 2 ^ j') by (apply pow2_pos; lia).
    assert (2 ^ j' * 2 <= 2 ^ j). { replace j with (j' + 1 + (j - j' - 1)) by lia. rewrite Z.pow_add_r, pow2_S by lia. assert (0 < 2 ^ (j - j' - 1)) by (apply pow2_pos; lia). nia. }
    destruct C as [C|C]; [|lia]. assert (P := pow2_prec b). nia.
Qed.

Definition lower_half (b : bool) (f : Z * Z) : bool := (fst f =? 2 ^ (prec b - 1)) && (emin b <? snd f).

Lemma below b f g : float_of b f -> float_of b g -> 0 < fst f -> units b g < units b f ->
  units b g <= units b f - (if lower_half b f then 2 ^ (snd f - emin b - 1) else 2 ^ (snd f - emin b)).
Proof.
  destruct f as [m e], g as [m' e']. unfold float_of, units, lower_half. cbn [fst snd]. intros (E & A & C) (E' & A' & C') Hm Hl.
  assert (P := pow2_prec b). assert (Pp := prec_pos b). assert (0 < 2 ^ (prec b - 1)) by (apply pow2_pos; lia).
  set (j := e - emin b) in *. set (j' := e' - emin b) in *.
  assert (J : 0 < 2 ^ j) by (apply pow2_pos; lia). assert (J' : 0 < 2 ^ j') by (apply pow2_pos; lia).
  assert (JJ : 0 < j -> 2 ^ j = 2 * 2 ^ (j - 1)) by (intros; replace j with (j - 1 + 1) at 1 by lia; apply pow2_S; lia).
  assert (JP : 0 < j -> 0 < 2 ^ (j - 1)) by (intros; apply pow2_pos; lia).
  destruct (Z_le_gt_dec j j') as [L|L].
  - replace j' with (j + (j' - j)) in * by lia. rewrite Z.pow_add_r in * by lia.
    assert (0 < 2 ^ (j' - j)) by (apply pow2_pos; lia).
    assert (m' * 2 ^ (j' - j) <= m - 1) by nia.
    destruct ((m =? 2 ^ (prec b - 1)) && (emin b <? e)) eqn:B; [assert (0 < j) by lia; specialize (JJ ltac:(lia)); specialize (JP ltac:(lia))|]; nia.
  - specialize (JJ ltac:(lia)). specialize (JP ltac:(lia)).
    assert (2 ^ j' <= 2 ^ (j - 1)) by (apply Z.pow_le_mono_r; lia).
    destruct C as [C|C]; [|lia].
    destruct ((m =? 2 ^ (prec b - 1)) && (emin b <? e)) eqn:B.
    + assert (m' * 2 ^ j' <= (2 ^ prec b - 1) * 2 ^ (j - 1)); [|nia].
      apply Z.le_trans with ((2 ^ prec b - 1) * 2 ^ j'); [apply Z.mul_le_mono_nonneg_r; lia | apply Z.mul_le_mono_nonneg_l; lia].
    + assert (2 ^ (prec b - 1) + 1 <= m) by lia.
      assert (m' * 2 ^ j' <= (2 ^ prec b - 1) * 2 ^ (j - 1)); [|nia].
      apply Z.le_trans with ((2 ^ prec b - 1) * 2 ^ j'); [apply Z.mul_le_mono_nonneg_r; lia | apply Z.mul_le_mono_nonneg_l; lia].
Qed.

(** Values have one representation. *)
Lemma units_inj b f g : float_of b f -> float_of b g -> units b f = units b g -> f = g.
Proof.
  destruct f as [m e], g as [m' e']. unfold float_of, units. cbn [fst snd]. intros (E & A & C) (E' & A' & C') U.
  assert (P := pow2_prec b).
  assert (X : forall m e m' e', emin b <= e -> emin b <= e' -> Z.abs m' < 2 ^ prec b -> (2 ^ (prec b - 1) <= Z.abs m \/ e = emin b) -> e' < e -> m * 2 ^ (e - emin b) = m' * 2 ^ (e' - emin b) -> False).
  { clear - P. intros m e m' e' E E' A C L U. destruct C as [C|C]; [|lia].
    replace (e - emin b) with (e' - emin b + 1 + (e - e' - 1)) in U by lia. rewrite Z.pow_add_r, pow2_S in U by lia.
    assert (0 < 2 ^ (e' - emin b)) by (apply pow2_pos; lia). assert (0 < 2 ^ (e - e' - 1)) by (apply pow2_pos; lia).
    assert (m' = m * 2 * 2 ^ (e - e' - 1)) by nia. nia. }
  destruct (Z.lt_trichotomy e e') as [L|[L|L]].
  - exfalso. eapply X; [| |exact A|exact C'|exact L|symmetry; exact U]; lia.
  - subst e'. assert (0 < 2 ^ (e - emin b)) by (apply pow2_pos; lia). f_equal. nia.
  - exfalso. eapply X; [| |exact A'|exact C|exact L|exact U]; lia.
Qed.

Definition fneg (f : Z * Z) : Z * Z := (- fst f, snd f).
Lemma fneg_float b f : float_of b f -> float_of b (fneg f).
Proof. destruct f as [m e]. unfold float_of, fneg. cbn [fst snd]. rewrite Z.abs_opp. auto. Qed.
Lemma fneg_fneg f : fneg (fneg f) = f.
Proof. destruct f. unfold fneg. cbn [fst snd]. rewrite Z.opp_involutive. reflexivity. Qed.
Lemma gap_neg b n d f : gap b (- n) d (fneg f) = gap b n d f.
Proof. unfold gap, units, fneg. cbn [fst snd]. lia. Qed.
Lemma rounds_neg b n d f : rounds b n d f -> rounds b (- n) d (fneg f).
Proof.
  intros (A & B & C). split; [apply fneg_float; exact A|]. split; [|rewrite Z.abs_opp; exact C].
  intros g Hg. rewrite gap_neg. rewrite <- (fneg_fneg g) at 1 2. rewrite gap_neg.
  destruct (B (fneg g) (fneg_float b g Hg)) as (B1 & B2). split; [exact B1|].
  intros X. destruct (B2 X) as [Y|Y]; [left; rewrite <- Y, fneg_fneg; reflexivity | right]. unfold fneg. cbn [fst]. rewrite Z.even_opp. exact Y.
Qed.
Lemma rounds_neg_iff b n d f : rounds b (- n) d (fneg f) <-> rounds b n d f.
Proof. split; [|apply rounds_neg]. intros H. apply rounds_neg in H. rewrite Z.opp_involutive, fneg_fneg in H. exact H. Qed.

(** Only the quotient matters. *)
Lemma rounds_scale b n d k f : 0 < k -> rounds b n d f <-> rounds b (n * k) (d * k) f.
Proof.
  intros K. assert (G : forall g, gap b (n * k) (d * k) g = gap b n d g * k).
  { intros g. unfold gap. replace (n * k * 2 ^ (- emin b) - units b g * (d * k)) with ((n * 2 ^ (- emin b) - units b g * d) * k) by lia. rewrite Z.abs_mul. lia. }
  unfold rounds. split; intros (A & B & C); (split; [exact A|]); (split; [intros g Hg; destruct (B g Hg) as (B1 & B2)|]).
  - rewrite !G. split; [nia|]. intros X. apply B2. nia.
  - rewrite Z.abs_mul. replace (Z.abs k) with k by lia. nia.
  - rewrite !G in *. split; [nia|]. intros X. apply B2. nia.
  - rewrite Z.abs_mul in C. replace (Z.abs k) with k in C by lia. nia.
Qed.
Lemma rounds_quot b n d n' d' f : 0 < d -> 0 < d' -> n * d' = n' * d -> rounds b n d f <-> rounds b n' d' f.
Proof. intros D D' E. rewrite (rounds_scale b n d d' f D'), (rounds_scale b n' d' d f D), E, (Z.mul_comm d d'). reflexivity. Qed.

(** Neighbours.  *)
Definition succ (b : bool) (f : Z * Z) : Z * Z :=
  let '(m, e) := f in
  if 0 <=? m then (if m + 1 =? 2 ^ prec b then (2 ^ (prec b - 1), e + 1) else (m + 1, e))
  else if (m =? - 2 ^ (prec b - 1)) && (emin b <? e) then (1 - 2 ^ prec b, e - 1)
  else (m + 1, e).
Lemma even_prec b : Z.even (2 ^ prec b) = true. Proof. destruct b; reflexivity. Qed.
Lemma succ_ok b f : float_of b f -> (0 <= fst f -> fst f + 1 = 2 ^ prec b -> snd f < emax b) ->
  float_of b (succ b f) /\ units b f < units b (succ b f) /\ Z.even (fst (succ b f)) = negb (Z.even (fst f)).
Proof.
  destruct f as [m e]. unfold float_of, units, succ. cbn [fst snd]. intros (E & A & C) M.
  assert (P := pow2_prec b). assert (Pp := prec_pos b). assert (0 < 2 ^ (prec b - 1)) by (apply pow2_pos; lia).
  assert (J : 0 < 2 ^ (e - emin b)) by (apply pow2_pos; lia).
  assert (Ev := even_half b). assert (Ev' := even_prec b).
  assert (Es : forall z, Z.even (z + 1) = negb (Z.even z)) by (intros z; rewrite Z.add_1_r, Z.even_succ; apply eq_sym, Z.negb_even).
  destruct (0 <=? m) eqn:B; [destruct (m + 1 =? 2 ^ prec b) eqn:B2|destruct ((m =? - 2 ^ (prec b - 1)) && (emin b <? e)) eqn:B3]; cbn [fst snd].
  - specialize (M ltac:(lia) ltac:(lia)). split; [lia|]. split.
    + replace (e + 1 - emin b) with (e - emin b + 1) by lia. rewrite pow2_S by lia. nia.
    + rewrite Ev. rewrite <- (Es m). replace (m + 1) with (2 ^ prec b) by lia. symmetry. exact Ev'.
  - split; [lia|]. split; [nia | apply Es].
  - split; [lia|]. split.
    + replace (e - emin b) with (e - 1 - emin b + 1) in * by lia. rewrite pow2_S in * by lia. nia.
    + replace (1 - 2 ^ prec b) with (- 2 ^ prec b + 1) by lia. rewrite Es, Z.even_opp, Ev'.
      replace m with (- 2 ^ (prec b - 1)) by lia. rewrite Z.even_opp, Ev. reflexivity.
  - split; [lia|]. split; [nia | apply Es].
Qed.

(** Rounding has one result. *)
Theorem rounds_unique b n d f g : 0 < d -> rounds b n d f -> rounds b n d g -> f = g.
Proof.
  intros D. assert (W : forall f g, units b f < units b g -> rounds b n d f -> rounds b n d g -> False).
  { clear f g. intros f g L (A & B & C) (A' & B' & C').
    destruct (B g A') as (B1 & B2). destruct (B' f A) as (B1' & B2').
    assert (Q : gap b n d f = gap b n d g) by lia.
    assert (Ef : Z.even (fst f) = true). { destruct (B2 Q) as [X|X]; [subst g; lia | exact X]. }
    assert (Eg : Z.even (fst g) = true). { destruct (B2' ltac:(lia)) as [X|X]; [subst g; lia | exact X]. }
    destruct (succ_ok b f A) as (S1 & S2 & S3).
    { intros X Y. rewrite <- (Z.negb_odd (fst f)) in Ef. assert (Z.odd (fst f) = true); [|destruct (Z.odd (fst f)); discriminate].
      replace (fst f) with (2 ^ prec b - 1) by lia. destruct b; reflexivity. }
    destruct (B _ S1) as (B3 & B4). destruct (B' _ S1) as (B3' & B4').
    assert (X : succ b f = g).
    { destruct (Z.lt_trichotomy (units b (succ b f)) (units b g)) as [Y|[Y|Y]].
      - exfalso. unfold gap in *. nia.
      - apply (units_inj b); assumption.
      - exfalso. (* g lies strictly between f and its successor *)
        clear - A A' S1 S2 L Y S3.
        destruct (Z_le_gt_dec 0 (fst f)) as [F|F].
        + assert (T := above b f g A A' F L). destruct f as [m e]. unfold units, succ in *. cbn [fst snd] in *.
          replace (0 <=? m) with true in Y by lia. destruct A as (E & A & _). cbn [fst snd] in *. assert (P := pow2_prec b).
          destruct (m + 1 =? 2 ^ prec b) eqn:B2; cbn [fst snd] in Y; [|nia].
          replace (e + 1 - emin b) with (e - emin b + 1) in Y by lia. rewrite pow2_S in Y by lia. nia.
        + (* mirror: below the positive value -f *)
          assert (T := below b (fneg f) (fneg g) (fneg_float b f A) (fneg_float b g A')).
          destruct f as [m e], g as [m' e']. unfold units, succ, fneg, lower_half in *. cbn [fst snd] in *.
          specialize (T ltac:(lia) ltac:(lia)). replace (0 <=? m) with false in Y by lia. destruct A as (E & A & _). cbn [fst snd] in *. assert (P := pow2_prec b).
          replace (- m =? 2 ^ (prec b - 1)) with (m =? - 2 ^ (prec b - 1)) in T by (destruct (m =? - 2 ^ (prec b - 1)) eqn:?, (- m =? 2 ^ (prec b - 1)) eqn:?; lia).
          destruct ((m =? - 2 ^ (prec b - 1)) && (emin b <? e)) eqn:B3; cbn [fst snd] in Y; [|lia].
          replace (e - 1 - emin b) with (e - emin b - 1) in Y by lia. assert (H1 : 2 ^ (e - emin b) = 2 * 2 ^ (e - emin b - 1)) by (rewrite <- pow2_S by lia; f_equal; lia).
          rewrite H1 in T. nia. }
    subst g. rewrite S3, Ef in Eg. discriminate. }
  intros Hf Hg. destruct (Z.lt_trichotomy (units b f) (units b g)) as [L|[L|L]].
  - exfalso. eapply W; eauto.
  - apply (units_inj b); [apply Hf | apply Hg | exact L].
  - exfalso. eapply W; eauto.
Qed.

(** ** The interval of numbers that round to a positive value *)
Definition inside (b : bool) (n d : Z) (f : Z * Z) : bool :=
  let x := n * 2 ^ (- emin b) in
  let h := 2 ^ (snd f - emin b) * d in
  let u := fst f * h in
  (if Z.even (fst f) then 2 * x <=? 2 * u + h else 2 * x <? 2 * u + h) &&
  (if lower_half b f then 4 * u - h <=? 4 * x else if Z.even (fst f) then 2 * u - h <=? 2 * x else 2 * u - h <? 2 * x).

Lemma overflow_units b n d : 0 < d -> Z.abs n < (2 ^ (prec b + 1) - 1) * 2 ^ (emax b - 1) * d <->
  2 * Z.abs (n * 2 ^ (- emin b)) < (2 ^ (prec b + 1) - 1) * 2 ^ (emax b - emin b) * d.
Proof.
  intros D. rewrite Z.abs_mul. assert (H := emax_emin b). assert (P : 0 < 2 ^ (- emin b)) by (apply pow2_pos; lia).
  rewrite (Z.abs_eq (2 ^ (- emin b))) by lia.
  set (q := 2 ^ (prec b + 1) - 1). replace (emax b - emin b) with (emax b - 1 + 1 + - emin b) by lia. rewrite Z.pow_add_r, pow2_S by lia.
  set (e := 2 ^ (emax b - 1)). set (p := 2 ^ (- emin b)) in *.
  replace (q * (2 * e * p) * d) with (q * e * d * (2 * p)) by ring. generalize (q * e * d). intros r. nia.
Qed.

Lemma lower_half_even b f : lower_half b f = true -> Z.even (fst f) = true.
Proof. unfold lower_half. intros H. apply andb_prop in H. destruct H as (H & _). apply Z.eqb_eq in H. rewrite H. apply even_half. Qed.

Theorem inside_rounds b n d f : float_of b f -> 0 < fst f -> 0 < d -> inside b n d f = true -> rounds b n d f.
Proof.
  intros F M D I. unfold inside in I. apply andb_prop in I. destruct I as (I1 & I2).
  set (x := n * 2 ^ (- emin b)) in *. set (h0 := 2 ^ (snd f - emin b)) in *.
  assert (E0 : 0 < h0) by (apply pow2_pos; destruct F as (F & _); lia).
  assert (Eh : lower_half b f = true -> h0 = 2 * 2 ^ (snd f - emin b - 1)).
  { unfold lower_half, h0. intros L. replace (snd f - emin b) with (snd f - emin b - 1 + 1) at 1 by lia. apply pow2_S. lia. }
  set (h1 := 2 ^ (snd f - emin b - 1)) in *.
  assert (U : units b f = fst f * h0) by reflexivity.
  assert (L4 : lower_half b f = true -> 4 * (fst f * (h0 * d)) - h0 * d <= 4 * x) by (intros L; rewrite L in I2; lia).
  assert (L2 : lower_half b f = false -> 2 * (fst f * (h0 * d)) - h0 * d <= 2 * x) by (intros L; rewrite L in I2; destruct (Z.even (fst f)); lia).
  assert (L2' : Z.even (fst f) = false -> 2 * (fst f * (h0 * d)) - h0 * d < 2 * x).
  { intros V. destruct (lower_half b f) eqn:L; [apply lower_half_even in L; congruence|]. rewrite V in I2. lia. }
  assert (R : 2 * x <= 2 * (fst f * (h0 * d)) + h0 * d) by (destruct (Z.even (fst f)); lia).
  assert (R' : Z.even (fst f) = false -> 2 * x < 2 * (fst f * (h0 * d)) + h0 * d) by (intros V; rewrite V in I1; lia).
  clear I1 I2.
  assert (B : forall g, float_of b g -> gap b n d f <= gap b n d g /\ (Z.even (fst f) = false -> g <> f -> gap b n d f < gap b n d g)).
  { intros g G. unfold gap. fold x.
    destruct (Z.lt_trichotomy (units b f) (units b g)) as [L|[L|L]].
    - assert (T := above b f g F G ltac:(lia) L). fold h0 in T. rewrite U in *. assert ((fst f * h0 + h0) * d <= units b g * d) by nia.
      split; [nia|]. intros V _. specialize (R' V). nia.
    - assert (g = f) by (apply (units_inj b); auto). subst g. split; [lia|]. congruence.
    - assert (T := below b f g F G ltac:(lia) L). fold h0 h1 in T. rewrite U in *. destruct (lower_half b f) eqn:Lh.
      + specialize (L4 eq_refl). specialize (Eh eq_refl). assert (units b g * d <= (fst f * h0 - h1) * d) by nia.
        split; [nia|]. intros V _. apply lower_half_even in Lh. congruence.
      + specialize (L2 eq_refl). assert (units b g * d <= (fst f * h0 - h0) * d) by nia. split; [nia|]. intros V _. specialize (L2' V). nia. }
  split; [exact F|]. split.
  - intros g G. destruct (B g G) as (B1 & B2). split; [exact B1|]. intros Q. destruct (Z.even (fst f)); [auto|]. left.
    destruct (Z.eq_dec (fst g) (fst f)) as [X|X], (Z.eq_dec (snd g) (snd f)) as [Y|Y].
    + destruct f, g. cbn in *. congruence.
    + exfalso. assert (g <> f) by congruence. specialize (B2 eq_refl H). lia.
    + exfalso. assert (g <> f) by congruence. specialize (B2 eq_refl H). lia.
    + exfalso. assert (g <> f) by congruence. specialize (B2 eq_refl H). lia.
  - apply overflow_units; [exact D|]. fold x. destruct F as (F1 & F2 & F3). assert (P := pow2_prec b). assert (Pp := prec_pos b).
    rewrite (pow2_S (prec b)) by lia. set (h2 := 2 ^ (emax b - emin b)).
    assert (H2 : h0 <= h2) by (apply Z.pow_le_mono_r; lia).
    assert (S : 0 <= 2 * x). { destruct (lower_half b f) eqn:Lh; [specialize (L4 eq_refl); nia | specialize (L2 eq_refl); nia]. }
    assert (fst f + 1 <= 2 ^ prec b) by lia.
    destruct (Z.even (fst f)) eqn:V.
    + assert (fst f + 2 <= 2 ^ prec b).
      { assert (W := even_prec b). destruct (Z.eq_dec (fst f + 1) (2 ^ prec b)) as [W'|W']; [|lia]. rewrite <- W', Z.add_1_r, Z.even_succ, <- Z.negb_even, V in W. discriminate. }
      assert ((2 * fst f + 1) * (h0 * d) <= (2 * 2 ^ prec b - 3) * (h2 * d)) by (apply Z.mul_le_mono_nonneg; nia). nia.
    + specialize (R' eq_refl). assert ((2 * fst f + 1) * (h0 * d) <= (2 * 2 ^ prec b - 1) * (h2 * d)) by (apply Z.mul_le_mono_nonneg; nia). nia.
Qed.

Lemma succ_units b f : emin b <= snd f -> 0 <= fst f -> units b (succ b f) = units b f + 2 ^ (snd f - emin b).
Proof.
  destruct f as [m e]. unfold units, succ. cbn [fst snd]. intros E M. replace (0 <=? m) with true by lia. assert (P := pow2_prec b).
  destruct (m + 1 =? 2 ^ prec b) eqn:B; cbn [fst snd]; [|lia].
  replace (e + 1 - emin b) with (e - emin b + 1) by lia. rewrite pow2_S by lia. nia.
Qed.
Lemma pred_units b f : emin b <= snd f -> 0 < fst f ->
  units b (fneg (succ b (fneg f))) = units b f - (if lower_half b f then 2 ^ (snd f - emin b - 1) else 2 ^ (snd f - emin b)).
Proof.
  destruct f as [m e]. unfold units, succ, fneg, lower_half. cbn [fst snd]. intros E M. replace (0 <=? - m) with false by lia. assert (P := pow2_prec b).
  replace (- m =? - 2 ^ (prec b - 1)) with (m =? 2 ^ (prec b - 1)) by (destruct (m =? 2 ^ (prec b - 1)) eqn:?, (- m =? - 2 ^ (prec b - 1)) eqn:?; lia).
  destruct ((m =? 2 ^ (prec b - 1)) && (emin b <? e)) eqn:B; cbn [fst snd]; [|lia].
  replace (e - 1 - emin b) with (e - emin b - 1) by lia. assert (H1 : 2 ^ (e - emin b) = 2 * 2 ^ (e - emin b - 1)) by (rewrite <- pow2_S by lia; f_equal; lia).
  rewrite H1. nia.
Qed.

Theorem rounds_inside b n d f : 0 < fst f -> 0 < d -> rounds b n d f -> inside b n d f = true.
Proof.
  intros M D (F & B & O). apply overflow_units in O; [|exact D].
  set (x := n * 2 ^ (- emin b)) in *. set (h0 := 2 ^ (snd f - emin b)).
  assert (E0 : 0 < h0) by (apply pow2_pos; destruct F as (F & _); lia).
  assert (U : units b f = fst f * h0) by reflexivity. assert (E1 : 0 < h0 * d) by nia.
  assert (Fe : emin b <= snd f) by (destruct F as (F & _); lia).
  assert (Neq : forall g, units b g <> units b f -> gap b n d f = gap b n d g -> float_of b g -> Z.even (fst f) = true).
  { intros g N Q G. destruct (B g G) as (_ & B2). destruct (B2 Q) as [X|X]; [subst g; lia | exact X]. }
  unfold inside. fold x h0. apply andb_true_intro. split.
  - destruct (Z.eq_dec (fst f + 1) (2 ^ prec b)) as [T|T]; [destruct (Z.eq_dec (snd f) (emax b)) as [T'|T']|].
    + replace (Z.even (fst f)) with false. 2: { replace (fst f) with (2 ^ prec b - 1) by lia. destruct b; reflexivity. }
      unfold h0 in *. rewrite T' in *. rewrite (pow2_S (prec b)) in O by (assert (Pp := prec_pos b); lia). replace (fst f) with (2 ^ prec b - 1) by lia. nia.
    + destruct (succ_ok b f F ltac:(intros; destruct F as (F & _); lia)) as (S1 & S2 & S3). assert (Su := succ_units b f Fe ltac:(lia)). fold h0 in Su.
      destruct (B _ S1) as (B1 & _). assert (Q := Neq (succ b f) ltac:(lia)). unfold gap in *. fold x in B1, Q. rewrite Su, U in *.
      destruct (Z.even (fst f)); [lia|]. assert (2 * x <> 2 * (fst f * (h0 * d)) + h0 * d); [|lia]. intros C. assert (false = true); [|discriminate]. apply Q; [lia | exact S1].
    + destruct (succ_ok b f F ltac:(intros; lia)) as (S1 & S2 & S3). assert (Su := succ_units b f Fe ltac:(lia)). fold h0 in Su.
      destruct (B _ S1) as (B1 & _). assert (Q := Neq (succ b f) ltac:(lia)). unfold gap in *. fold x in B1, Q. rewrite Su, U in *.
      destruct (Z.even (fst f)); [lia|]. assert (2 * x <> 2 * (fst f * (h0 * d)) + h0 * d); [|lia]. intros C. assert (false = true); [|discriminate]. apply Q; [lia | exact S1].
  - assert (FN := fneg_float b f F). destruct (succ_ok b (fneg f) FN) as (S1 & _ & _).
    { intros X Y. unfold fneg in *. cbn [fst snd] in *. lia. }
    apply fneg_float in S1. assert (Su := pred_units b f Fe M). fold h0 in Su. set (g := fneg (succ b (fneg f))) in *.
    destruct (B _ S1) as (B1 & _). destruct (lower_half b f) eqn:Lh.
    + assert (Eh : h0 = 2 * 2 ^ (snd f - emin b - 1)). { unfold lower_half in Lh. unfold h0. replace (snd f - emin b) with (snd f - emin b - 1 + 1) at 1 by lia. apply pow2_S. lia. }
      set (h1 := 2 ^ (snd f - emin b - 1)) in *. unfold gap in B1. fold x in B1. rewrite Su, U in B1. assert (h0 * d = 2 * (h1 * d)) by (rewrite Eh; ring). lia.
    + assert (Q := Neq g ltac:(lia)). unfold gap in *. fold x in B1, Q. rewrite Su, U in *.
      destruct (Z.even (fst f)); [lia|]. assert (2 * x <> 2 * (fst f * (h0 * d)) - h0 * d); [|lia]. intros C. assert (false = true); [|discriminate]. apply Q; [lia | exact S1].
Qed.
