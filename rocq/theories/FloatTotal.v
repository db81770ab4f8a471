(** Every number below the overflow limit rounds to a float. *)
From Verif Require Import Base FloatSpec FloatShort DurationFloat.

Lemma rounds_top b n d : 0 < n -> 0 < d -> ge2 n d (emax b + prec b - 1) -> Z.abs n < (2 ^ (prec b + 1) - 1) * 2 ^ (emax b - 1) * d -> exists m, rounds b n d (m, emax b).
Proof.
  intros N D G O. apply overflow_units in O; [|exact D]. assert (Pp := prec_pos b). assert (P := pow2_prec b). assert (EE := emax_emin b).
  set (x := n * 2 ^ (- emin b)) in *. set (h := 2 ^ (emax b - emin b) * d).
  assert (Hh : 0 < h) by (unfold h; apply Z.mul_pos_pos; [apply pow2_pos; lia | exact D]).
  assert (X0 : 0 < x) by (unfold x; apply Z.mul_pos_pos; [exact N | apply pow2_pos; lia]).
  assert (Lo : 2 ^ (prec b - 1) * h <= x).
  { apply (ge2_alt n d _ (emax b + prec b - 1 - emin b) (- emin b)) in G; [|lia..]. unfold x, h.
    replace (emax b + prec b - 1 - emin b) with (prec b - 1 + (emax b - emin b)) in G by lia. rewrite Z.pow_add_r in G by lia. lia. }
  assert (Up : 2 * x < (2 * 2 ^ prec b - 1) * h) by (rewrite (pow2_S (prec b)) in O by lia; unfold h; nia). clear O G.
  assert (DM := Z.div_mod x h ltac:(lia)). assert (MB := Z.mod_pos_bound x h Hh). set (q := x / h) in *. set (r := x mod h) in *. rewrite Z.mul_comm in DM.
  assert (Q1 : 2 ^ (prec b - 1) <= q) by (apply Z.div_le_lower_bound; lia).
  assert (Q2 : q < 2 ^ prec b) by (apply Z.div_lt_upper_bound; [exact Hh | nia]).
  assert (P0 : 0 < 2 ^ (prec b - 1)) by (apply pow2_pos; lia).
  assert (Es : forall z, Z.even (z + 1) = negb (Z.even z)) by (intros z; rewrite Z.add_1_r, Z.even_succ; apply eq_sym, Z.negb_even).
  assert (Fin : forall m, (m = q /\ 2 * r <= h /\ (Z.even q = false -> 2 * r < h)) \/ (m = q + 1 /\ h <= 2 * r /\ (Z.even (q + 1) = false -> h < 2 * r)) -> exists m, rounds b n d (m, emax b)).
  { intros m Hm. exists m. assert (Mb : q <= m < 2 ^ prec b).
    { destruct Hm as [(-> & _)|(-> & A & _)]; [lia|]. split; [lia|]. destruct (Z.eq_dec (q + 1) (2 ^ prec b)) as [Y|Y]; [exfalso | lia].
      assert (2 * (q * h + r) < (2 * (q + 1) - 1) * h) by (rewrite Y; lia). nia. }
    apply inside_rounds; cbn [fst snd]; [|lia|exact D|].
    - unfold float_of. cbn [fst snd]. lia.
    - unfold inside. cbn [fst snd]. fold x h. rewrite DM. unfold lower_half. cbn [fst snd]. apply andb_true_intro.
      destruct Hm as [(-> & A & B)|(-> & A & B)].
      + split; [destruct (Z.even q) eqn:V; [|specialize (B eq_refl)]; nia|]. destruct (_ && _); [nia|]. destruct (Z.even q); nia.
      + replace (q + 1 =? 2 ^ (prec b - 1)) with false by lia. cbn [andb].
        split; [destruct (Z.even (q + 1)); nia|]. destruct (Z.even (q + 1)) eqn:V; [|specialize (B eq_refl)]; nia. }
  destruct (Z.lt_trichotomy (2 * r) h) as [L|[L|L]].
  - apply (Fin q). left. lia.
  - destruct (Z.even q) eqn:V; [apply (Fin q); left; lia | apply (Fin (q + 1)); right]. rewrite Es, V. cbn [negb]. split; [reflexivity|]. split; [lia | discriminate].
  - apply (Fin (q + 1)). right. lia.
Qed.

Lemma rounds_tiny b n d : 0 < n -> 0 < d -> ~ ge2 n d (emin b) -> exists m, rounds b n d (m, emin b).
Proof.
  intros N D G. assert (Pp := prec_pos b). assert (P := pow2_prec b). assert (EE := emax_emin b).
  rewrite (ge2_alt n d (emin b) 0 (- emin b)) in G by lia. rewrite Z.pow_0_r, Z.mul_1_r in G.
  assert (X0 : 0 < n * 2 ^ (- emin b)) by (apply Z.mul_pos_pos; [exact N | apply pow2_pos; lia]).
  assert (P1 : 2 <= 2 ^ (prec b - 1)) by (replace (prec b - 1) with (prec b - 2 + 1) by lia; rewrite pow2_S by lia; assert (0 < 2 ^ (prec b - 2)) by (apply pow2_pos; lia); lia).
  destruct (Z_le_gt_dec (2 * (n * 2 ^ (- emin b))) d) as [L|L].
  - exists 0. split; [unfold float_of; cbn [fst snd]; lia|]. split.
    + intros g Hg. split; [|right; reflexivity]. unfold gap. replace (units b (0, emin b)) with 0 by (unfold units; cbn [fst]; lia).
      set (u := units b g). set (x := n * 2 ^ (- emin b)) in *. destruct (Z.lt_trichotomy u 0) as [U|[U|U]]; nia.
    + apply overflow_units; [exact D|]. set (x := n * 2 ^ (- emin b)) in *. assert (1 <= 2 ^ (emax b - emin b)) by (assert (0 < 2 ^ (emax b - emin b)) by (apply pow2_pos; lia); lia).
      rewrite (pow2_S (prec b)) by lia. assert (1 <= (2 * 2 ^ prec b - 1) * 2 ^ (emax b - emin b)) by nia. nia.
  - exists 1. apply inside_rounds; cbn [fst snd]; [|lia|exact D|].
    + unfold float_of. cbn [fst snd]. lia.
    + unfold inside. cbn [fst snd]. replace (emin b - emin b) with 0 by lia. rewrite Z.pow_0_r. unfold lower_half. cbn [fst snd]. replace (1 =? 2 ^ (prec b - 1)) with false by lia. cbn [andb Z.even]. lia.
Qed.

Theorem rounds_total b n d : 0 < d -> Z.abs n < (2 ^ (prec b + 1) - 1) * 2 ^ (emax b - 1) * d -> exists f, rounds b n d f.
Proof.
  intros D. assert (Pos : forall n, 0 < n -> Z.abs n < (2 ^ (prec b + 1) - 1) * 2 ^ (emax b - 1) * d -> exists f, rounds b n d f).
  { intros k K O. assert (De : forall t, ge2 k d t \/ ~ ge2 k d t) by (intros t; unfold ge2; lia).
    destruct (De (emax b + prec b - 1)) as [T|T]; [destruct (rounds_top b k d K D T O); eauto|].
    destruct (De (emin b)) as [S|S]; [destruct (rnd_rounds b k d K D S T); eauto | destruct (rounds_tiny b k d K D S); eauto]. }
  intros O. destruct (Z.lt_trichotomy n 0) as [N|[N|N]].
  - destruct (Pos (- n)) as [f F]; [lia | rewrite Z.abs_opp; exact O|]. exists (fneg f). rewrite <- (Z.opp_involutive n). apply rounds_neg_iff. exact F.
  - subst n. exists (0, emin b). split; [unfold float_of; cbn [fst snd]; destruct b; cbn; lia|]. split; [|exact O].
    intros g _. split; [|right; reflexivity]. unfold gap at 1. unfold units. cbn [fst]. rewrite !Z.mul_0_l. apply Z.abs_nonneg.
  - apply Pos; assumption.
Qed.
