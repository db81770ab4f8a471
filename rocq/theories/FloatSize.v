(** How long the text of a float can be (C70): a number written without an
    exponent has at most 21 digits before the point, and at most 5 zeros after
    it. *)
From Verif Require Import Base JsonSpec IntModel IntProof FloatModel FloatProof FloatSpec FloatShort Properties_Numbers Properties_FloatText.

(** Rounding is monotone. *)
Lemma rounds_mono b n d n' d' f g : 0 < d -> 0 < d' -> n * d' <= n' * d -> rounds b n d f -> rounds b n' d' g -> units b f <= units b g.
Proof.
  intros D D' L R R'. destruct (Z_le_gt_dec (units b f) (units b g)) as [X|X]; [exact X|exfalso].
  assert (A := proj1 (proj1 (proj2 R) g (proj1 R'))). assert (A' := proj1 (proj1 (proj2 R') f (proj1 R))). unfold gap in A, A'.
  set (P := 2 ^ (- emin b)) in *. assert (Pp : 0 < P) by (apply pow2_pos; destruct b; cbn; lia). set (F := units b f) in *. set (G := units b g) in *.
  assert (B : (F + G) * d <= 2 * (n * P)) by nia. assert (B' : 2 * (n' * P) <= (F + G) * d') by nia.
  assert (Eq : n * d' = n' * d).
  { assert (Q1 : (F + G) * d * d' <= 2 * (n * P) * d') by nia. assert (Q2 : 2 * (n' * P) * d <= (F + G) * d' * d) by nia.
    assert (2 * P * (n' * d) <= 2 * P * (n * d')) by lia. nia. }
  assert (R2 : rounds b n d g) by (apply (rounds_quot b n d n' d' g D D' Eq); exact R'). assert (E := rounds_unique b n d f g D R R2). subst g. lia.
Qed.

Lemma dyadic_units b x y : emin b <= snd x -> emin b <= snd y -> (dyadic_lt x y <-> units b x < units b y).
Proof.
  intros X Y. unfold dyadic_lt, units. set (k := Z.min (snd x) (snd y)).
  replace (snd x - emin b) with (snd x - k + (k - emin b)) by lia. replace (snd y - emin b) with (snd y - k + (k - emin b)) by lia.
  rewrite !Z.pow_add_r by lia. assert (0 < 2 ^ (k - emin b)) by (apply pow2_pos; lia). nia.
Qed.

Lemma limit_floats b : float_of b (lo_limit b) /\ float_of b (hi_limit b).
Proof. destruct b; vm_compute; intuition discriminate. Qed.
Lemma lo_reads b : reads_as b 1 (-6) (lo_limit b).
Proof. unfold reads_as. apply inside_rounds; [apply limit_floats | destruct b; reflexivity | reflexivity | destruct b; vm_compute; reflexivity]. Qed.
Lemma hi_reads b : reads_as b 1 21 (hi_limit b).
Proof. unfold reads_as. apply inside_rounds; [apply limit_floats | destruct b; reflexivity | reflexivity | destruct b; vm_compute; reflexivity]. Qed.
(** The float nearest to 9e-7. *)
Definition nine (b : bool) : Z * Z := if b then (8500259669165361, -73) else (15832967, -44).
Lemma nine_reads b : reads_as b 9 (-7) (nine b).
Proof.
  unfold reads_as. apply inside_rounds; [destruct b; vm_compute; intuition discriminate | destruct b; reflexivity | reflexivity | destruct b; vm_compute; reflexivity].
Qed.
Lemma nine_below b : units b (nine b) < units b (lo_limit b).
Proof. destruct b; vm_compute; reflexivity. Qed.

(** Comparing decimals. *)
Lemma reads_mono b M K M' K' f g : (exists R, 0 <= R /\ 0 <= K + R /\ 0 <= K' + R /\ M * 10 ^ (K + R) <= M' * 10 ^ (K' + R)) -> reads_as b M K f -> reads_as b M' K' g -> units b f <= units b g.
Proof.
  intros (R & HR & HK & HK' & L) A B. rewrite (reads_over b M K f R) in A by lia. rewrite (reads_over b M' K' g R) in B by lia. assert (P : 0 < 10 ^ R) by (apply pow10_pos; lia).
  eapply rounds_mono; [| | |exact A|exact B]; nia.
Qed.

Lemma dval_ge d ds : digit d -> d <> 48 -> Forall digit ds -> 10 ^ Z.of_nat (length ds) <= dval (d :: ds).
Proof.
  intros D N F. assert (L := dval_bound ds F). rewrite dval_cons. unfold digit in D. nia.
Qed.

Lemma prod_le v t a r : 0 <= v <= t -> 0 < a -> 0 < r -> v * a <= a * t * r.
Proof. intros V A R. assert (v * a <= a * t) by nia. assert (0 <= a * t) by nia. nia. Qed.
Lemma shortest_range sh b m e ds dp : shortest_exact sh -> float_of b (Zpos m, e) -> sh b m e = (ds, dp) -> ~ far b m e -> -5 <= dp <= 21.
Proof.
  intros [SO SE] F Es Nf. destruct (SO _ _ _ _ _ Es) as (Fd & (d & tl & Ed & Nz) & L17 & Rg). destruct (SE b m e ds dp F Es) as [Rd Mn].
  destruct (limit_floats b) as [Fl Fh]. assert (E1 : emin b <= e) by apply F. assert (E2 : emin b <= snd (lo_limit b)) by apply Fl. assert (E3 : emin b <= snd (hi_limit b)) by apply Fh.
  unfold far in Nf. rewrite (dyadic_units b (Zpos m, e) (lo_limit b) E1 E2), (dyadic_units b (Zpos m, e) (hi_limit b) E1 E3) in Nf.
  assert (Dig : digit d /\ Forall digit tl) by (rewrite Ed in Fd; inversion Fd; auto). destruct Dig as [Dd Dt]. assert (Ln : length ds = S (length tl)) by (rewrite Ed; reflexivity).
  split.
  - destruct (Z_le_gt_dec (-5) dp) as [X|X]; [exact X|exfalso].
    assert (Up := dval_bound ds Fd).
    assert (A : units b (Zpos m, e) <= units b (lo_limit b)).
    { eapply reads_mono; [|exact Rd|exact (lo_reads b)]. exists 500. split; [lia|]. split; [lia|]. split; [lia|]. replace (-6 + 500) with ((dp - Z.of_nat (length ds) + 500) + Z.of_nat (length ds) + (-6 - dp)) by lia.
      assert (AP : 0 <= dp - Z.of_nat (length ds) + 500) by lia. revert AP. generalize (dp - Z.of_nat (length ds) + 500). intros A AP. rewrite !Z.pow_add_r by lia. assert (0 < 10 ^ A) by (apply pow10_pos; lia). assert (0 < 10 ^ (-6 - dp)) by (apply pow10_pos; lia). rewrite Z.mul_1_l. apply prod_le; lia. }
    assert (Eq : (Zpos m, e) = lo_limit b) by (apply (units_inj b); [exact F | exact Fl | lia]).
    assert (One : length tl = 0%nat).
    { assert (Q := Mn 1 (-6) ltac:(lia) ltac:(rewrite Eq; apply lo_reads)). rewrite Ln in Q. destruct tl as [|d2 tl]; [reflexivity|]. exfalso. cbn [length] in Q. replace (Z.of_nat (S (S (length tl))) - 1) with (Z.of_nat (length tl) + 1) in Q by lia.
      rewrite Z.pow_add_r in Q by lia. assert (0 < 10 ^ Z.of_nat (length tl)) by (apply pow10_pos; lia). lia. }
    rewrite Ln, One in Rd, Up. change (Z.of_nat 1) with 1 in *. change (10 ^ 1) with 10 in Up.
    assert (B : units b (Zpos m, e) <= units b (nine b)).
    { eapply reads_mono; [|exact Rd|exact (nine_reads b)]. exists 500. split; [lia|]. split; [lia|]. split; [lia|]. replace (-7 + 500) with ((dp - 1 + 500) + (-6 - dp)) by lia.
      assert (AP : 0 <= dp - 1 + 500) by lia. revert AP. generalize (dp - 1 + 500). intros A0 AP. rewrite Z.pow_add_r by lia. assert (0 < 10 ^ A0) by (apply pow10_pos; lia). assert (0 < 10 ^ (-6 - dp)) by (apply pow10_pos; lia). nia. }
    assert (C := nine_below b). rewrite Eq in B. lia.
  - destruct (Z_le_gt_dec dp 21) as [X|X]; [exact X|exfalso].
    assert (Lo := dval_ge d tl Dd Nz Dt). rewrite <- Ed in Lo.
    assert (A : units b (hi_limit b) <= units b (Zpos m, e)).
    { eapply reads_mono; [|exact (hi_reads b)|exact Rd]. exists 500. split; [lia|]. split; [lia|]. split; [lia|]. rewrite Ln. replace (dp - Z.of_nat (S (length tl)) + 500) with (21 + 500 - Z.of_nat (length tl) + (dp - 22)) by lia.
      replace (21 + 500) with ((21 + 500 - Z.of_nat (length tl)) + Z.of_nat (length tl)) at 1 by lia.
      assert (AP : 0 <= 21 + 500 - Z.of_nat (length tl)) by lia. revert AP. generalize (21 + 500 - Z.of_nat (length tl)). intros A AP. rewrite !Z.pow_add_r by lia.
      assert (0 < 10 ^ A) by (apply pow10_pos; lia). assert (0 < 10 ^ (dp - 22)) by (apply pow10_pos; lia). assert (0 < 10 ^ Z.of_nat (length tl)) by (apply pow10_pos; lia).
      rewrite Z.mul_1_l. replace (dval ds * (10 ^ A * 10 ^ (dp - 22))) with (10 ^ A * dval ds * 10 ^ (dp - 22)) by ring. rewrite (Z.mul_comm (10 ^ A) (10 ^ Z.of_nat (length tl))). apply prod_le; lia. }
    lia.
Qed.

Lemma int_lit_length l a k : int_lit l a -> 0 <= a < 10 ^ Z.of_nat k -> (1 <= k)%nat -> (length l <= k)%nat.
Proof.
  intros L A K. inversion L as [|ds J N E1 E2|ds J N E1 E2]; subst; [cbn; lia | |].
  - destruct J as [|c tl Hc Ht]; [cbn; lia|]. assert (B := dval_bound tl Ht). rewrite dval_cons in A. assert (D : 10 ^ Z.of_nat (length tl) < 10 ^ Z.of_nat k) by nia.
    apply Z.pow_lt_mono_r_iff in D; [cbn [length]; lia | lia | lia].
  - exfalso. assert (0 <= dval ds); [|assert (dval ds = 0) by lia].
    + destruct J as [|c tl Hc Ht]; [cbn; lia|]. assert (B := dval_bound tl Ht). rewrite dval_cons. assert (0 < 10 ^ Z.of_nat (length tl)) by (apply pow10_pos; lia). nia.
    + destruct J as [|c tl Hc Ht]; [congruence|]. assert (B := dval_bound tl Ht). rewrite dval_cons in *. assert (0 < 10 ^ Z.of_nat (length tl)) by (apply pow10_pos; lia). nia.
Qed.

Lemma spelled_length sh b f x : shortest_exact sh -> (forall neg m e, f = FFin neg m e -> float_of b (Zpos m, e)) -> float_spelled sh b f x ->
  (length x <= if match f with FFin neg _ _ | FZero neg | FInf neg => neg | FNaN => false end then 25 else 24)%nat.
Proof.
  intros SE F Sp. induction Sp as [| |m e ds dp x Es Hf Hx|m e ds dp x Es Hf Hx|m e x Hx IH]; try (cbn; lia).
  - assert (R := shortest_range sh b m e ds dp SE (F _ _ _ eq_refl) Es Hf). destruct (proj1 SE _ _ _ _ _ Es) as (_ & _ & L & _).
    inversion Hx; subst; rewrite ?app_length, ?repeat_length in *; cbn [length lit] in *; try lia. change (length (lit ".")) with 1%nat. lia. change (length (lit "0.")) with 2%nat. lia.
  - destruct (proj1 SE _ _ _ _ _ Es) as (_ & _ & L & Rg).
    assert (X : forall e y, exponent e y -> -1000 < e < 1000 -> (length y <= 5)%nat).
    { intros e0 y Hy. destruct Hy as [l e0 Hp Hl|l e0 Hp Hl|l e0 Hp Hl]; intros Hr; rewrite app_length.
      - assert (B := int_lit_length l e0 3 Hl ltac:(cbn; lia) ltac:(lia)). change (length (lit "e-")) with 2%nat. lia.
      - assert (B := int_lit_length l e0 3 Hl ltac:(cbn; lia) ltac:(lia)). change (length (lit "e+")) with 2%nat. lia.
      - assert (B := int_lit_length l e0 1 Hl ltac:(cbn; lia) ltac:(lia)). change (length (lit "e+0")) with 3%nat. lia. }
    inversion Hx as [d dp' y Hy|d tl dp' y Hn Hy]; subst; assert (Ly := X _ _ Hy ltac:(lia)); cbn [length] in *; [lia|]. rewrite !app_length. change (length (lit ".")) with 1%nat. lia.
  - rewrite app_length. change (length (lit "-")) with 1%nat. specialize (IH ltac:(intros neg m0 e0 [= <- <- <-]; apply (F true); reflexivity)). cbn in IH. lia.
Qed.
