(** The shortest decimal that reads back as a given float, and a proof that the
    contract assumed of strconv.AppendFloat (precision -1) can be met.  The
    model takes the shortest decimals from a parameter, this file does not model
    the algorithm of strconv. *)
From Verif Require Import Base JsonSpec IntModel IntProof FloatModel FloatProof FloatSpec.

(** M * 10^K as a quotient. *)
Definition dec_num (M K : Z) : Z := M * 10 ^ Z.max 0 K.
Definition dec_den (K : Z) : Z := 10 ^ Z.max 0 (- K).
(** The decimal M * 10^K reads as the float f. *)
Definition reads_as (b : bool) (M K : Z) (f : Z * Z) : Prop := rounds b (dec_num M K) (dec_den K) f.

(** The contract: for a positive float the digits are the fewest that read back
    as the same float. *)
Definition shortest_exact (shortest : bool -> positive -> Z -> bytes * Z) : Prop :=
  shortest_ok shortest /\
  forall b m e ds dp, float_of b (Zpos m, e) -> shortest b m e = (ds, dp) ->
    reads_as b (dval ds) (dp - Z.of_nat (length ds)) (Zpos m, e) /\
    (forall M K, 0 < M -> reads_as b M K (Zpos m, e) -> 10 ^ (Z.of_nat (length ds) - 1) <= M).

Lemma dec_den_pos K : 0 < dec_den K. Proof. apply pow10_pos. lia. Qed.

(** M * 10^K over any denominator 10^R. *)
Lemma reads_over b M K f R : 0 <= R -> 0 <= K + R -> reads_as b M K f <-> rounds b (M * 10 ^ (K + R)) (10 ^ R) f.
Proof.
  intros HR HK. unfold reads_as. apply rounds_quot; [apply dec_den_pos | apply pow10_pos; lia|].
  unfold dec_num, dec_den. rewrite <- !Z.mul_assoc, <- !Z.pow_add_r by lia. do 2 f_equal. lia.
Qed.
Lemma reads_same b M K M' K' f : same_dec M K M' K' -> reads_as b M K f <-> reads_as b M' K' f.
Proof.
  unfold same_dec. intros H. set (R := Z.max 0 (Z.max (- K) (- K'))).
  rewrite (reads_over b M K f R), (reads_over b M' K' f R) by lia.
  replace (M * 10 ^ (K + R)) with (M' * 10 ^ (K' + R)); [reflexivity|].
  set (j := Z.min K K' + R). replace (K + R) with (K - Z.min K K' + j) by lia. replace (K' + R) with (K' - Z.min K K' + j) by lia.
  rewrite !(Z.pow_add_r 10 _ j) by lia. rewrite !Z.mul_assoc, H. reflexivity.
Qed.
Lemma reads_neg b M K f : reads_as b (- M) K (fneg f) <-> reads_as b M K f.
Proof. unfold reads_as, dec_num. rewrite Z.mul_opp_l. apply rounds_neg_iff. Qed.
Theorem reads_unique b M K f g : reads_as b M K f -> reads_as b M K g -> f = g.
Proof. apply rounds_unique. apply dec_den_pos. Qed.

(** ** Search *)
Section Search.
  Variable b : bool.
  Variables m e : Z.

  (** m * 2^e * 10^400 = big_num / big_den *)
  Definition big_num : Z := m * 2 ^ Z.max 0 e * 10 ^ 400.
  Definition big_den : Z := 2 ^ Z.max 0 (- e).
  (** m * 2^e lies between 10^dexp and 10^(dexp+1) *)
  Definition dexp : Z := Z.of_nat (length (dec_digits (big_num / big_den))) - 401.

  Definition try_digits (n : Z) : option (Z * Z) :=
    let k := dexp - n + 1 in
    let w := big_den * 10 ^ (k + 400) in
    let q := big_num / w in
    let ok c := inside b (c * 10 ^ (k + 400)) (10 ^ 400) (m, e) in
    if ok q then (if ok (q + 1) && (w <? 2 * (big_num - q * w)) then Some (q + 1, k) else Some (q, k))
    else if ok (q + 1) then Some (q + 1, k)
    else None.

  Fixpoint search (fuel : nat) (n : Z) : Z * Z :=
    match fuel with
    | O => (1, 0)
    | S f => match try_digits n with Some r => r | None => search f (n + 1) end
    end.
End Search.

(** Without the trailing zeros. *)
Fixpoint strip (ds : bytes) : bytes :=
  match ds with
  | [] => []
  | d :: t => match strip t with [] => if d =? 48 then [] else [d] | t' => d :: t' end
  end.

Definition float_ofb (b : bool) (m e : Z) : bool :=
  (emin b <=? e) && (e <=? emax b) && (Z.abs m <? 2 ^ prec b) && ((2 ^ (prec b - 1) <=? Z.abs m) || (e =? emin b)).

Definition shortest_dec (b : bool) (m : positive) (e : Z) : bytes * Z :=
  if float_ofb b (Zpos m) e then
    let '(c, k) := search b (Zpos m) e 17 1 in
    (strip (dec_digits c), k + Z.of_nat (length (dec_digits c)))
  else ([49], 1).

(** ** Proof *)
Lemma float_ofb_ok b m e : float_ofb b m e = true <-> float_of b (m, e).
Proof. unfold float_ofb, float_of. cbn [fst snd]. lia. Qed.

Lemma strip_spec ds : exists j, ds = strip ds ++ repeat 48 j.
Proof.
  induction ds as [|d t (j & IH)]; [exists 0%nat; reflexivity|]. cbn [strip]. destruct (strip t) as [|x t'] eqn:E.
  - cbn [app] in IH. destruct (d =? 48) eqn:D.
    + exists (S j). cbn [app repeat]. f_equal; [lia | exact IH].
    + exists j. cbn [app]. f_equal. exact IH.
  - exists j. cbn [app]. f_equal. exact IH.
Qed.
Lemma strip_head d t : d <> 48 -> exists t', strip (d :: t) = d :: t'.
Proof. intros H. cbn [strip]. destruct (strip t); [replace (d =? 48) with false by lia|]; eauto. Qed.
Lemma strip_last ds : strip ds = [] \/ last (strip ds) 0 <> 48.
Proof.
  induction ds as [|d t IH]; [left; reflexivity|]. cbn [strip]. destruct (strip t) as [|x t'] eqn:E.
  - destruct (d =? 48) eqn:D; [left; reflexivity | right; cbn; lia].
  - right. destruct IH as [IH|IH]; [discriminate|]. exact IH.
Qed.

Lemma digits_size z : 0 < z -> exists d t, dec_digits z = d :: t /\ d <> 48 /\ Forall digit (d :: t) /\
  10 ^ (Z.of_nat (length (dec_digits z)) - 1) <= z < 10 ^ Z.of_nat (length (dec_digits z)).
Proof.
  intros Hz. destruct (dec_digits_spec z ltac:(lia)) as (A & B & C). destruct (dec_digits_digits z ltac:(lia)) as (D & _).
  assert (X := dval_bound _ D). rewrite B in X. inversion A as [Q|d t H1 H2 Q].
  - exfalso. symmetry in Q. apply C in Q. lia.
  - exists d, t. rewrite <- Q in *. split; [reflexivity|]. split; [lia|]. split; [exact D|]. split; [|apply X].
    rewrite <- B, dval_cons. cbn [length]. replace (Z.of_nat (S (length t)) - 1) with (Z.of_nat (length t)) by lia.
    assert (0 < 10 ^ Z.of_nat (length t)) by (apply pow10_pos; lia). inversion D as [|? ? _ Dt]. assert (Y := dval_bound _ Dt). nia.
Qed.

Lemma inside_convex b f n1 d1 n2 d2 n3 d3 : 0 < d1 -> 0 < d2 -> 0 < d3 -> n1 * d2 <= n2 * d1 -> n2 * d3 <= n3 * d2 ->
  inside b n1 d1 f = true -> inside b n3 d3 f = true -> inside b n2 d2 f = true.
Proof.
  intros D1 D2 D3 L1 L3 I1 I3. unfold inside in *. apply andb_prop in I1, I3. destruct I1 as (_ & I1), I3 as (I3 & _).
  assert (PP : 0 < 2 ^ (- emin b)) by (apply pow2_pos; assert (H := emax_emin b); lia).
  set (P := 2 ^ (- emin b)) in *. set (h := 2 ^ (snd f - emin b)) in *. clearbody P h.
  assert (U : forall W, 2 * (n3 * P) <= W * d3 -> 2 * (n2 * P) <= W * d2).
  { intros W HW. apply (Z.mul_le_mono_pos_r _ _ d3 D3). apply Z.le_trans with (2 * (n3 * d2 * P)); [nia|]. apply Z.le_trans with (W * d3 * d2); nia. }
  assert (U' : forall W, 2 * (n3 * P) < W * d3 -> 2 * (n2 * P) < W * d2).
  { intros W HW. apply (Z.mul_lt_mono_pos_r d3 _ _ D3). apply Z.le_lt_trans with (2 * (n3 * d2 * P)); [nia|]. apply Z.lt_le_trans with (W * d3 * d2); nia. }
  assert (V : forall c W, 0 < c -> W * d1 <= c * (n1 * P) -> W * d2 <= c * (n2 * P)).
  { intros c W Hc HW. apply (Z.mul_le_mono_pos_r _ _ d1 D1). apply Z.le_trans with (c * (n1 * P) * d2); [nia|].
    replace (c * (n1 * P) * d2) with (n1 * d2 * (c * P)) by ring. replace (c * (n2 * P) * d1) with (n2 * d1 * (c * P)) by ring. apply Z.mul_le_mono_nonneg_r; nia. }
  assert (V' : forall W, W * d1 < 2 * (n1 * P) -> W * d2 < 2 * (n2 * P)).
  { intros W HW. apply (Z.mul_lt_mono_pos_r d1 _ _ D1). apply Z.lt_le_trans with (2 * (n1 * P) * d2); [nia|].
    replace (2 * (n1 * P) * d2) with (n1 * d2 * (2 * P)) by ring. replace (2 * (n2 * P) * d1) with (n2 * d1 * (2 * P)) by ring. apply Z.mul_le_mono_nonneg_r; nia. }
  apply andb_true_intro. split.
  - destruct (Z.even (fst f)).
    + specialize (U ((2 * fst f + 1) * h)). lia.
    + specialize (U' ((2 * fst f + 1) * h)). lia.
  - destruct (lower_half b f); [|destruct (Z.even (fst f))].
    + specialize (V 4 ((4 * fst f - 1) * h)). lia.
    + specialize (V 2 ((2 * fst f - 1) * h)). lia.
    + specialize (V' ((2 * fst f - 1) * h)). lia.
Qed.

Section Proof.
  Variable b : bool.
  Variables m e : Z.
  Hypothesis F : float_of b (m, e).
  Hypothesis M : 0 < m.
  Local Notation S := (big_num m e).
  Local Notation T := (big_den e).
  Local Notation E := (dexp m e).

  Lemma T_pos : 0 < T. Proof. apply pow2_pos. lia. Qed.
  Lemma S_pos : 0 < S. Proof. unfold big_num. assert (0 < 2 ^ Z.max 0 e) by (apply pow2_pos; lia). assert (0 < 10 ^ 400) by reflexivity. nia. Qed.

  (** S / T is m * 2^e * 10^400 *)
  Lemma S_T : S * 2 ^ (- emin b) = m * 2 ^ (e - emin b) * 10 ^ 400 * T.
  Proof.
    unfold big_num, big_den. destruct F as (F1 & _). cbn [snd] in F1. assert (H := emax_emin b).
    assert (2 ^ Z.max 0 e * 2 ^ (- emin b) = 2 ^ (e - emin b) * 2 ^ Z.max 0 (- e)) by (rewrite <- !Z.pow_add_r by lia; f_equal; lia).
    replace (m * 2 ^ Z.max 0 e * 10 ^ 400 * 2 ^ (- emin b)) with (m * 10 ^ 400 * (2 ^ Z.max 0 e * 2 ^ (- emin b))) by ring. rewrite H0. ring.
  Qed.

  Lemma quot_size : T * 10 ^ 76 <= S < T * 10 ^ 709.
  Proof.
    destruct F as (F1 & F2 & _). cbn [fst snd] in F1, F2. unfold big_num, big_den.
    assert (A1 : 2 ^ Z.max 0 (- e) <= 2 ^ 1074) by (apply Z.pow_le_mono_r; [lia|]; destruct b; cbn in F1; lia).
    assert (A2 : 2 ^ Z.max 0 e <= 2 ^ 971) by (apply Z.pow_le_mono_r; [lia|]; destruct b; cbn in F1; lia).
    assert (A3 : m < 2 ^ 53) by (destruct b; cbn [prec] in F2; [lia | assert (2 ^ 24 < 2 ^ 53) by reflexivity; lia]).
    assert (B1 : 0 < 2 ^ Z.max 0 (- e)) by (apply pow2_pos; lia). assert (B2 : 0 < 2 ^ Z.max 0 e) by (apply pow2_pos; lia).
    assert (C1 : 2 ^ 1074 * 10 ^ 76 <= 10 ^ 400) by (vm_compute; discriminate).
    assert (C2 : 2 ^ 53 * 2 ^ 971 * 10 ^ 400 < 10 ^ 709) by (vm_compute; reflexivity).
    assert (P1 : 0 < 10 ^ 76) by reflexivity. assert (P2 : 0 < 10 ^ 400) by reflexivity. assert (P3 : 0 < 10 ^ 709) by reflexivity.
    set (t := 2 ^ Z.max 0 (- e)) in *. set (u := 2 ^ Z.max 0 e) in *. set (x := 10 ^ 400) in *. set (y := 10 ^ 76) in *. set (z := 10 ^ 709) in *.
    set (a1 := 2 ^ 1074) in *. set (a2 := 2 ^ 971) in *. set (a3 := 2 ^ 53) in *. clearbody t u x y z a1 a2 a3. split.
    - apply Z.le_trans with (a1 * y); [nia|]. apply Z.le_trans with x; [exact C1|]. assert (1 <= m * u) by nia. nia.
    - apply Z.le_lt_trans with (a3 * a2 * x); [|nia]. apply Z.mul_le_mono_nonneg_r; [lia|]. apply Z.mul_le_mono_nonneg; lia.
  Qed.

  Lemma E_spec : T * 10 ^ (E + 400) <= S < T * 10 ^ (E + 401) /\ -324 <= E <= 308.
  Proof.
    assert (TP := T_pos). assert (Q := quot_size). unfold dexp. set (z := S / T).
    assert (Zb : 10 ^ 76 <= z < 10 ^ 709).
    { unfold z. split; [apply Z.div_le_lower_bound; lia | apply Z.div_lt_upper_bound; lia]. }
    assert (0 < 10 ^ 76) by reflexivity.
    destruct (digits_size z ltac:(lia)) as (_ & _ & _ & _ & _ & L). set (l := Z.of_nat (length (dec_digits z))) in *.
    replace (l - 401 + 400) with (l - 1) by lia. replace (l - 401 + 401) with l by lia.
    assert (DM := Z.div_mod S T ltac:(lia)). assert (MB := Z.mod_pos_bound S T TP). fold z in DM.
    split; [clear - TP L DM MB; split; nia|].
    assert (76 < l). { apply (Z.pow_lt_mono_r_iff 10); lia. }
    assert (l - 1 < 709). { apply (Z.pow_lt_mono_r_iff 10); lia. }
    lia.
  Qed.

  Section Digits.
    Variable n : Z.
    Hypothesis N : 1 <= n <= 17.
    Let k := E - n + 1.
    Let w := T * 10 ^ (k + 400).
    Let q := S / w.

    Lemma k_bound : -340 <= k <= 308. Proof. destruct E_spec as (_ & H). unfold k. lia. Qed.
    Lemma w_pos : 0 < w. Proof. unfold w. assert (TP := T_pos). assert (0 < 10 ^ (k + 400)) by (apply pow10_pos; assert (H := k_bound); lia). nia. Qed.
    Lemma q_spec : q * w <= S < (q + 1) * w.
    Proof. assert (W := w_pos). assert (DM := Z.div_mod S w ltac:(lia)). assert (MB := Z.mod_pos_bound S w W). fold q in DM. nia. Qed.
    Lemma q_size : 10 ^ (n - 1) <= q < 10 ^ n.
    Proof.
      assert (W := w_pos). destruct E_spec as ((L1 & L2) & _). assert (KB := k_bound). unfold q. split.
      - apply Z.div_le_lower_bound; [exact W|]. unfold w. rewrite <- Z.mul_assoc, <- Z.pow_add_r by lia. replace (k + 400 + (n - 1)) with (E + 400) by (unfold k; lia). exact L1.
      - apply Z.div_lt_upper_bound; [exact W|]. unfold w. rewrite <- Z.mul_assoc, <- Z.pow_add_r by lia. replace (k + 400 + n) with (E + 401) by (unfold k; lia). exact L2.
    Qed.

    Lemma ok_reads c : inside b (c * 10 ^ (k + 400)) (10 ^ 400) (m, e) = true <-> reads_as b c k (m, e).
    Proof.
      assert (KB := k_bound). rewrite (reads_over b c k (m, e) 400) by lia. split.
      - intros I. apply inside_rounds; [exact F | exact M | reflexivity | exact I].
      - intros R. apply rounds_inside; [exact M | reflexivity | exact R].
    Qed.

    Lemma self_inside : inside b S (T * 10 ^ 400) (m, e) = true.
    Proof.
      unfold inside. cbn [fst snd]. assert (X := S_T). assert (TP := T_pos). destruct F as (F1 & _). cbn [snd] in F1.
      assert (Y : S * 2 ^ (- emin b) = m * (2 ^ (e - emin b) * (T * 10 ^ 400))) by (rewrite X; ring). rewrite Y.
      assert (0 < 2 ^ (e - emin b) * (T * 10 ^ 400)).
      { assert (0 < 2 ^ (e - emin b)) by (apply pow2_pos; lia). assert (0 < 10 ^ 400) by reflexivity. apply Z.mul_pos_pos; [lia|]. apply Z.mul_pos_pos; lia. }
      generalize dependent (2 ^ (e - emin b) * (T * 10 ^ 400)). intros h _ Hh.
      destruct (Z.even m), (lower_half b (m, e)); lia.
    Qed.

    (** A decimal with at most n digits that reads as the float forces one of the
        two neighbours with n digits to do so. *)
    Lemma try_complete c k' : 0 < c < 10 ^ n -> reads_as b c k' (m, e) -> reads_as b q k (m, e) \/ reads_as b (q + 1) k (m, e).
    Proof.
      intros Hc Hr. assert (KB := k_bound). assert (TP := T_pos). assert (QS := q_spec). assert (QZ := q_size). destruct E_spec as (EB & _).
      set (R := Z.max 400 (- k')). assert (HR : 400 <= R) by lia.
      rewrite (reads_over b c k' (m, e) R) in Hr by lia. apply rounds_inside in Hr; [|exact M | apply pow10_pos; lia].
      assert (SI := self_inside).
      (* everything over 10^R *)
      assert (P0 : 0 < 10 ^ (R - 400)) by (apply pow10_pos; lia).
      assert (PR : 10 ^ R = 10 ^ 400 * 10 ^ (R - 400)) by (rewrite <- Z.pow_add_r by lia; f_equal; lia).
      assert (Pk : 10 ^ (k + R) = 10 ^ (k + 400) * 10 ^ (R - 400)) by (rewrite <- Z.pow_add_r by lia; f_equal; lia).
      assert (P4 : 0 < 10 ^ 400) by reflexivity.
      set (X4 := 10 ^ 400) in *. clearbody X4.
      set (S' := S * 10 ^ (R - 400)). set (wR := T * 10 ^ (k + R)).
      assert (QR : q * wR <= S' < (q + 1) * wR).
      { unfold S', wR. rewrite Pk. replace (T * (10 ^ (k + 400) * 10 ^ (R - 400))) with (w * 10 ^ (R - 400)) by (unfold w; ring). clear - QS P0. nia. }
      assert (PkR : 0 < 10 ^ (k + R)) by (apply pow10_pos; lia).
      destruct (Z_le_gt_dec (c * 10 ^ (k' + R) * T) S') as [L|L].
      - left. rewrite (reads_over b q k (m, e) R) by lia. apply inside_rounds; [exact F | exact M | apply pow10_pos; lia|].
        eapply inside_convex with (n1 := c * 10 ^ (k' + R)) (d1 := 10 ^ R) (n3 := S) (d3 := T * X4).
        + apply pow10_pos; lia.
        + apply pow10_pos; lia.
        + apply Z.mul_pos_pos; lia.
        + (* c * 10^k' <= q * 10^k *)
          apply Z.mul_le_mono_nonneg_r; [apply Z.lt_le_incl, pow10_pos; lia|].
          destruct (Z_le_gt_dec k k') as [K|K].
          * assert (X : 10 ^ (k' + R) = 10 ^ (k' - k) * 10 ^ (k + R)) by (rewrite <- Z.pow_add_r by lia; f_equal; lia).
            rewrite X, Z.mul_assoc in *. apply Z.mul_le_mono_nonneg_r; [lia|].
            assert (Y : c * 10 ^ (k' - k) * wR < (q + 1) * wR) by (unfold wR in *; lia). assert (0 < wR) by (apply Z.mul_pos_pos; lia).
            apply Z.mul_lt_mono_pos_r in Y; lia.
          * assert (X : 10 ^ (k + R) = 10 ^ (k - k' - 1) * 10 * 10 ^ (k' + R)) by (rewrite <- (Z.pow_1_r 10) at 3; rewrite <- !Z.pow_add_r by lia; f_equal; lia).
            assert (0 < 10 ^ (k' + R)) by (apply pow10_pos; lia). assert (0 < 10 ^ (k - k' - 1)) by (apply pow10_pos; lia).
            rewrite X. assert (Y : 10 ^ n = 10 ^ (n - 1) * 10) by (rewrite <- (Z.pow_1_r 10) at 3; rewrite <- Z.pow_add_r by lia; f_equal; lia).
            assert (c <= q * (10 ^ (k - k' - 1) * 10)) by (clear - Y QZ Hc H0; nia).
            rewrite Z.mul_assoc. apply Z.mul_le_mono_nonneg_r; lia.
        + rewrite PR. unfold wR, S' in QR. clear - QR P4. apply Z.le_trans with (q * (T * 10 ^ (k + R)) * X4); [apply Z.eq_le_incl; ring|].
          apply Z.le_trans with (S * 10 ^ (R - 400) * X4); [apply Z.mul_le_mono_nonneg_r; lia | apply Z.eq_le_incl; ring].
        + exact Hr.
        + exact SI.
      - right. rewrite (reads_over b (q + 1) k (m, e) R) by lia. apply inside_rounds; [exact F | exact M | apply pow10_pos; lia|].
        assert (K : k <= k').
        { destruct (Z_le_gt_dec k k') as [K|K]; [exact K|exfalso].
          assert (X : 10 ^ (k + R) = 10 ^ (k - k' - 1) * 10 * 10 ^ (k' + R)) by (rewrite <- (Z.pow_1_r 10) at 3; rewrite <- !Z.pow_add_r by lia; f_equal; lia).
          assert (0 < 10 ^ (k' + R)) by (apply pow10_pos; lia). assert (0 < 10 ^ (k - k' - 1)) by (apply pow10_pos; lia).
          assert (Y : 10 ^ n = 10 ^ (n - 1) * 10) by (rewrite <- (Z.pow_1_r 10) at 3; rewrite <- Z.pow_add_r by lia; f_equal; lia).
          assert (c <= q * (10 ^ (k - k' - 1) * 10)) by (clear - Y QZ Hc H0; nia).
          assert (Z1 : c * 10 ^ (k' + R) <= q * 10 ^ (k + R)) by (rewrite X, Z.mul_assoc; apply Z.mul_le_mono_nonneg_r; lia).
          assert (Z2 : c * 10 ^ (k' + R) * T <= q * 10 ^ (k + R) * T) by (apply Z.mul_le_mono_nonneg_r; lia). unfold wR in QR. lia. }
        eapply inside_convex with (n1 := S) (d1 := T * X4) (n3 := c * 10 ^ (k' + R)) (d3 := 10 ^ R).
        + apply Z.mul_pos_pos; lia.
        + apply pow10_pos; lia.
        + apply pow10_pos; lia.
        + rewrite PR. unfold wR, S' in QR. clear - QR P4. apply Z.le_trans with (S * 10 ^ (R - 400) * X4); [apply Z.eq_le_incl; ring|].
          apply Z.le_trans with ((q + 1) * (T * 10 ^ (k + R)) * X4); [apply Z.mul_le_mono_nonneg_r; lia | apply Z.eq_le_incl; ring].
        + apply Z.mul_le_mono_nonneg_r; [apply Z.lt_le_incl, pow10_pos; lia|].
          assert (X : 10 ^ (k' + R) = 10 ^ (k' - k) * 10 ^ (k + R)) by (rewrite <- Z.pow_add_r by lia; f_equal; lia).
          rewrite X, Z.mul_assoc in *. apply Z.mul_le_mono_nonneg_r; [lia|].
          assert (Y : q * wR < c * 10 ^ (k' - k) * wR) by (unfold wR in *; lia). assert (0 < wR) by (apply Z.mul_pos_pos; lia).
          apply Z.mul_lt_mono_pos_r in Y; lia.
        + exact SI.
        + exact Hr.
    Qed.

    Lemma try_sound c k' : try_digits b m e n = Some (c, k') -> k' = k /\ reads_as b c k (m, e) /\ (c = q \/ c = q + 1).
    Proof.
      unfold try_digits. fold k. fold w. fold q. assert (O := ok_reads q). assert (O' := ok_reads (q + 1)).
      destruct (inside b (q * _) _ _); [destruct (inside b ((q + 1) * _) _ _); cbn [andb]; [destruct (w <? _)|]|destruct (inside b ((q + 1) * _) _ _)];
        intros X; try discriminate X; injection X as <- <-; (split; [reflexivity|]); (split; [apply O || apply O'; reflexivity | auto]).
    Qed.
    Lemma try_none : try_digits b m e n = None -> ~ reads_as b q k (m, e) /\ ~ reads_as b (q + 1) k (m, e).
    Proof.
      unfold try_digits. fold k. fold w. fold q. assert (O := ok_reads q). assert (O' := ok_reads (q + 1)).
      destruct (inside b (q * _) _ _); [destruct (inside b ((q + 1) * _) _ _); cbn [andb]; [destruct (w <? _)|]|destruct (inside b ((q + 1) * _) _ _)];
        intros X; try discriminate X. split; intros Y; [apply O in Y | apply O' in Y]; discriminate.
    Qed.
  End Digits.

  (** Seventeen digits are enough. *)
  Lemma near_core s P h t w r : 0 < P -> 0 < t -> 0 < h -> s * P = m * h * t -> 10000000000000000 * w <= s -> 0 <= r -> 2 * r <= w -> m < 9007199254740992 ->
    2 * (r * P) < h * t /\ (m <= 4503599627370496 -> 4 * (r * P) <= h * t).
  Proof.
    clear F. intros HP Ht Hh Es Hw Hr Hrw Hm. assert (Y : 0 < h * t) by (apply Z.mul_pos_pos; lia).
    assert (A : 20000000000000000 * (r * P) <= m * (h * t)).
    { apply Z.le_trans with (10000000000000000 * w * P); [|rewrite Z.mul_assoc, <- Es; apply Z.mul_le_mono_nonneg_r; lia].
      replace (20000000000000000 * (r * P)) with (10000000000000000 * (2 * r) * P) by ring. apply Z.mul_le_mono_nonneg_r; lia. }
    generalize dependent (h * t). generalize dependent (r * P). intros rp y Hy Hrp. split.
    - assert (m * y <= 9007199254740991 * y) by (apply Z.mul_le_mono_nonneg_r; lia). lia.
    - intros Hm2. assert (m * y <= 4503599627370496 * y) by (apply Z.mul_le_mono_nonneg_r; lia). lia.
  Qed.

  Lemma try_17 : try_digits b m e 17 <> None.
  Proof.
    intros H. assert (N : 1 <= 17 <= 17) by lia. apply (try_none 17 N) in H. destruct H as (H1 & H2).
    assert (KB := k_bound 17 N). assert (QS := q_spec 17 N). assert (QZ := q_size 17 N). assert (WP := w_pos 17 N).
    rewrite <- (ok_reads 17 N) in H1, H2. set (k := E - 17 + 1) in *. set (w := T * 10 ^ (k + 400)) in *. set (q := S / w) in *.
    assert (X := S_T). assert (TP := T_pos). destruct F as (F1 & F2 & _). cbn [fst snd] in F1, F2.
    assert (PP : 0 < 2 ^ (- emin b)) by (apply pow2_pos; assert (H := emax_emin b); lia).
    set (P := 2 ^ (- emin b)) in *. set (h := 2 ^ (e - emin b) * 10 ^ 400).
    assert (Hh : 0 < h). { unfold h. assert (0 < 2 ^ (e - emin b)) by (apply pow2_pos; lia). assert (0 < 10 ^ 400) by reflexivity. apply Z.mul_pos_pos; assumption. }
    assert (X' : S * P = m * h * T) by (rewrite X; unfold h; ring).
    assert (M1 : m < 2 ^ 53) by (destruct b; cbn [prec] in F2; [lia | assert (2 ^ 24 < 2 ^ 53) by reflexivity; lia]).
    assert (M2 : lower_half b (m, e) = true -> m <= 2 ^ 52).
    { unfold lower_half. cbn [fst snd]. destruct b; cbn [prec]; [|assert (2 ^ (24 - 1) <= 2 ^ 52) by (vm_compute; discriminate)]; lia. }
    unfold inside in H1, H2. cbn [fst snd] in H1, H2. fold P h in H1, H2.
    set (a := 10 ^ (k + 400)) in *.
    assert (A1 : q * a * T = q * w) by (unfold w; ring). assert (A2 : (q + 1) * a * T = (q + 1) * w) by (unfold w; ring).
    change (10 ^ (17 - 1)) with 10000000000000000 in QZ. change (2 ^ 53) with 9007199254740992 in M1. change (2 ^ 52) with 4503599627370496 in M2.
    assert (B : 10000000000000000 * w <= S) by (apply Z.le_trans with (q * w); [apply Z.mul_le_mono_nonneg_r; lia | lia]).
    clearbody h P a w q. clear X F1 F2 KB N.
    destruct (Z_le_gt_dec (2 * (S - q * w)) w) as [L|L].
    - apply H1. clear H1 H2. destruct (near_core S P h T w (S - q * w) PP TP Hh X' B ltac:(lia) L M1) as (N1 & N2).
      assert (D : (m * h - q * a * P) * T = (S - q * w) * P) by (rewrite Z.mul_sub_distr_r, <- X'; replace (q * a * P * T) with (q * a * T * P) by ring; rewrite A1; ring).
      assert (D0 : 0 <= (S - q * w) * P) by (apply Z.mul_nonneg_nonneg; lia).
      rewrite <- D in N1, N2, D0. clear D X'. generalize dependent (m * h). generalize dependent (q * a * P). intros x z N1 N2 D0.
      assert (D1 : 0 <= z - x) by (apply (Z.mul_le_mono_pos_r _ _ T TP); lia).
      assert (D2 : 2 * (z - x) < h) by (apply (Z.mul_lt_mono_pos_r T _ _ TP); lia).
      apply andb_true_intro. split; [destruct (Z.even m); lia|].
      destruct (lower_half b (m, e)) eqn:Lh; [|destruct (Z.even m); lia].
      specialize (N2 (M2 eq_refl)). assert (4 * (z - x) <= h) by (apply (Z.mul_le_mono_pos_r _ _ T TP); lia). lia.
    - apply H2. clear H1 H2. destruct (near_core S P h T w (w - (S - q * w)) PP TP Hh X' B ltac:(lia) ltac:(lia) M1) as (N1 & _).
      assert (D : ((q + 1) * a * P - m * h) * T = (w - (S - q * w)) * P) by (rewrite Z.mul_sub_distr_r, <- X'; replace ((q + 1) * a * P * T) with ((q + 1) * a * T * P) by ring; rewrite A2; ring).
      assert (D0 : 0 <= (w - (S - q * w)) * P) by (apply Z.mul_nonneg_nonneg; lia).
      rewrite <- D in N1, D0. clear D X'. generalize dependent (m * h). generalize dependent ((q + 1) * a * P). intros x z N1 D0.
      assert (D1 : 0 <= x - z) by (apply (Z.mul_le_mono_pos_r _ _ T TP); lia).
      assert (D2 : 2 * (x - z) < h) by (apply (Z.mul_lt_mono_pos_r T _ _ TP); lia).
      apply andb_true_intro. split; [destruct (Z.even m); lia|].
      destruct (lower_half b (m, e)) eqn:Lh; [|destruct (Z.even m)]; lia.
  Qed.

  Lemma search_spec fuel : forall n, 1 <= n -> n + Z.of_nat fuel = 18 -> n <= 17 ->
    (forall c k', 0 < c -> reads_as b c k' (m, e) -> 10 ^ (n - 1) <= c) ->
    exists n' c, 1 <= n' <= 17 /\ search b m e fuel n = (c, E - n' + 1) /\ reads_as b c (E - n' + 1) (m, e) /\ 10 ^ (n' - 1) <= c <= 10 ^ n' /\
      (forall c k', 0 < c -> reads_as b c k' (m, e) -> 10 ^ (n' - 1) <= c).
  Proof.
    induction fuel as [|fuel IH]; intros n Hn He Hn' Min; [lia|]. cbn [search]. destruct (try_digits b m e n) as [[c k']|] eqn:Tr.
    - assert (N : 1 <= n <= 17) by lia. assert (Z' := q_size n N). apply (try_sound n N) in Tr. destruct Tr as (-> & R & Hc). exists n, c.
      split; [lia|]. split; [reflexivity|]. split; [exact R|]. split; [destruct Hc; subst c; lia | exact Min].
    - assert (n <> 17). { intros ->. apply try_17 in Tr. exact Tr. }
      assert (N : 1 <= n <= 17) by lia. apply (try_none n N) in Tr. apply IH; [lia | lia | lia|].
      intros c k' Hc R. replace (n + 1 - 1) with n by lia. destruct (Z_lt_le_dec c (10 ^ n)) as [L|L]; [exfalso|exact L].
      destruct (try_complete n N c k' ltac:(lia) R); tauto.
  Qed.
End Proof.

Theorem shortest_dec_exact : shortest_exact shortest_dec.
Proof.
  assert (Main : forall b m e, float_of b (Zpos m, e) -> exists ds dp, shortest_dec b m e = (ds, dp) /\
    (Forall digit ds /\ (exists d t, ds = d :: t /\ d <> 48) /\ (length ds <= 17)%nat /\ -400 < dp < 400) /\
    reads_as b (dval ds) (dp - Z.of_nat (length ds)) (Zpos m, e) /\
    (forall M K, 0 < M -> reads_as b M K (Zpos m, e) -> 10 ^ (Z.of_nat (length ds) - 1) <= M)).
  { intros b m e Hf. unfold shortest_dec. rewrite (proj2 (float_ofb_ok b (Zpos m) e) Hf).
    destruct (search_spec b (Zpos m) e Hf eq_refl 17 1 ltac:(lia) ltac:(lia) ltac:(lia)) as (n & c & Hn & Es & Hr & Hc & Min).
    { intros c k Hc _. change (10 ^ (1 - 1)) with 1. lia. }
    rewrite Es. eexists _, _. split; [reflexivity|].
    assert (P1 : 0 < 10 ^ (n - 1)) by (apply pow10_pos; lia).
    destruct (digits_size c ltac:(lia)) as (d & t & Ed & Hd & Hdt & Hsz).
    destruct (strip_head d t Hd) as (t' & Et). destruct (strip_spec (dec_digits c)) as (j & Ej).
    assert (Ec : dval (dec_digits c) = c) by (apply dec_digits_spec; lia).
    assert (El : length (dec_digits c) = (length (strip (dec_digits c)) + j)%nat) by (rewrite Ej at 1; rewrite app_length, repeat_length; reflexivity).
    assert (Ev : c = dval (strip (dec_digits c)) * 10 ^ Z.of_nat j) by (rewrite <- Ec at 1; rewrite Ej at 1; apply dval_pad).
    destruct (E_spec b (Zpos m) e Hf eq_refl) as (_ & EB).
    assert (Ll : (length (strip (dec_digits c)) <= Z.to_nat n)%nat /\ n <= Z.of_nat (length (dec_digits c)) <= n + 1).
    { set (l := length (dec_digits c)) in *.
      assert (L1 : n - 1 < Z.of_nat l) by (apply (Z.pow_lt_mono_r_iff 10); lia).
      assert (L2 : Z.of_nat l - 1 <= n) by (apply (Z.pow_le_mono_r_iff 10); lia).
      split; [|lia]. destruct (Z.eq_dec c (10 ^ n)) as [X|X].
      - (* a power of ten: only its first digit is left *)
        assert (Sd : Forall digit (strip (dec_digits c))). { rewrite <- Ed in Hdt. rewrite Ej in Hdt. apply Forall_app in Hdt. apply Hdt. }
        destruct (Nat.le_gt_cases (length (strip (dec_digits c))) (Z.to_nat n)) as [Q|Q]; [exact Q|exfalso].
        assert (j = 0%nat) by lia. subst j. change (10 ^ Z.of_nat 0) with 1 in Ev. rewrite Z.mul_1_r in Ev.
        destruct (strip_last (dec_digits c)) as [Q2|Q2]; [rewrite Q2 in Q; cbn in Q; lia|].
        destruct (exists_last (l := strip (dec_digits c))) as (pre & z & Ez); [rewrite Ed, Et; discriminate|].
        rewrite Ez, last_last in Q2. rewrite Ez in Ev, Sd. rewrite dval_app in Ev. cbn [length] in Ev. change (Z.of_nat 1) with 1 in Ev. rewrite Z.pow_1_r in Ev.
        apply Forall_app in Sd. destruct Sd as (_ & Sd). inversion Sd as [|? ? Dz _]. unfold digit in Dz.
        assert (dval [z] = z - 48) by (unfold dval; cbn; lia). rewrite X in Ev. replace n with (n - 1 + 1) in Ev by lia. rewrite Z.pow_add_r, Z.pow_1_r in Ev by lia. lia.
      - assert (c < 10 ^ n) by lia. assert (Z.of_nat l - 1 < n) by (apply (Z.pow_lt_mono_r_iff 10); lia). lia. }
    destruct Ll as (Ll & Lb).
    split; [|split].
    - split; [|split; [|split]].
      + rewrite <- Ed in Hdt. rewrite Ej in Hdt. apply Forall_app in Hdt. apply Hdt.
      + exists d, t'. rewrite Ed, Et. auto.
      + lia.
      + lia.
    - eapply reads_same; [|exact Hr]. eapply (same_dec_intro _ _ _ _ (dexp (Zpos m) e - n + 1)); [lia | lia|].
      rewrite Z.sub_diag, El. replace (dexp (Z.pos m) e - n + 1 + Z.of_nat (length (strip (dec_digits c)) + j) - Z.of_nat (length (strip (dec_digits c))) - (dexp (Z.pos m) e - n + 1)) with (Z.of_nat j) by lia.
      rewrite <- Ev. lia.
    - intros M K HM HR. specialize (Min M K HM HR). eapply Z.le_trans; [|exact Min]. apply Z.pow_le_mono_r; lia. }
  split.
  - intros b m e ds dp Es. destruct (float_ofb b (Zpos m) e) eqn:Fb.
    + destruct (Main b m e (proj1 (float_ofb_ok b _ e) Fb)) as (ds' & dp' & Es' & A & _). rewrite Es' in Es. injection Es as <- <-. exact A.
    + unfold shortest_dec in Es. rewrite Fb in Es. injection Es as <- <-. split; [repeat constructor; unfold digit; lia|]. split; [exists 49, []; split; [reflexivity | lia]|]. cbn. lia.
  - intros b m e ds dp Hf Es. destruct (Main b m e Hf) as (ds' & dp' & Es' & _ & A). rewrite Es' in Es. injection Es as <- <-. exact A.
Qed.
