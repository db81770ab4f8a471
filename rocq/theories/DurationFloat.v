(** time.Duration.Minutes and Seconds (package time), in float64 arithmetic:
    every operation gives the rounded exact result. *)
From Verif Require Import Base FloatModel FloatSpec.

(** The float nearest to n / d, for 0 <= n and 0 < d. *)
Definition rnd (b : bool) (n d : Z) : Z * Z :=
  if n =? 0 then (0, emin b)
  else
    let s := Z.log2 n - Z.log2 d in
    let t := if n * 2 ^ Z.max 0 (- s) <? d * 2 ^ Z.max 0 s then s - 1 else s in
    let e := Z.max (emin b) (t - prec b + 1) in
    let n' := n * 2 ^ Z.max 0 (- e) in
    let d' := d * 2 ^ Z.max 0 e in
    let q := n' / d' in
    let r := n' mod d' in
    let m := if 2 * r <? d' then q else if d' <? 2 * r then q + 1 else if Z.even q then q else q + 1 in
    if m =? 2 ^ prec b then (2 ^ (prec b - 1), e + 1) else (m, e).

(** float64(n), x / y and x + y for x, y >= 0 *)
Definition fl_int (n : Z) : Z * Z := rnd true n 1.
Definition fl_div (x y : Z * Z) : Z * Z :=
  rnd true (fst x * 2 ^ Z.max 0 (snd x - snd y)) (fst y * 2 ^ Z.max 0 (snd y - snd x)).
Definition fl_add (x y : Z * Z) : Z * Z :=
  let e := Z.min (snd x) (snd y) in
  rnd true ((fst x * 2 ^ (snd x - e) + fst y * 2 ^ (snd y - e)) * 2 ^ Z.max 0 e) (2 ^ Z.max 0 (- e)).

(** time.Minute and time.Second *)
Definition dur_unit (mins : bool) : Z := if mins then 60000000000 else 1000000000.

(** On |d|: float64(d / unit) + float64(d % unit) / unit *)
Definition dur_abs (mins : bool) (a : Z) : Z * Z :=
  let u := dur_unit mins in
  fl_add (fl_int (a / u)) (fl_div (fl_int (a mod u)) (fl_int u)).

(** time.Duration.Minutes (true) and Seconds (false).  Both parts of a negative
    duration are negative or zero, and rounding is symmetric. *)
Definition dur_float (mins : bool) (d : Z) : fval :=
  match dur_abs mins (Z.abs d) with
  | (Zpos m, e) => FFin (d <? 0) m e
  | _ => FZero false
  end.

(** ** Rounding is correct *)
Lemma log2_quot n d : 0 < n -> 0 < d -> let s := Z.log2 n - Z.log2 d in
  d * 2 ^ Z.max 0 (s - 1) <= n * 2 ^ Z.max 0 (1 - s) /\ n * 2 ^ Z.max 0 (- s - 1) < d * 2 ^ Z.max 0 (s + 1).
Proof.
  intros N D s. destruct (Z.log2_spec n N) as (N1 & N2). destruct (Z.log2_spec d D) as (D1 & D2).
  assert (Ln := Z.log2_nonneg n). assert (Ld := Z.log2_nonneg d). set (x := Z.log2 n) in *. set (y := Z.log2 d) in *.
  split.
  - apply Z.le_trans with (2 ^ Z.succ y * 2 ^ Z.max 0 (s - 1)); [apply Z.mul_le_mono_nonneg_r; [apply Z.lt_le_incl, pow2_pos; lia | lia]|].
    apply Z.le_trans with (2 ^ x * 2 ^ Z.max 0 (1 - s)); [|apply Z.mul_le_mono_nonneg_r; [apply Z.lt_le_incl, pow2_pos; lia | lia]].
    rewrite <- !Z.pow_add_r by lia. apply Z.pow_le_mono_r; lia.
  - apply Z.lt_le_trans with (2 ^ Z.succ x * 2 ^ Z.max 0 (- s - 1)); [apply Z.mul_lt_mono_pos_r; [apply pow2_pos; lia | lia]|].
    apply Z.le_trans with (2 ^ y * 2 ^ Z.max 0 (s + 1)); [|apply Z.mul_le_mono_nonneg_r; [apply Z.lt_le_incl, pow2_pos; lia | lia]].
    rewrite <- !Z.pow_add_r by lia. apply Z.pow_le_mono_r; lia.
Qed.

(** n / d >= 2^t, for any t. *)
Definition ge2 (n d t : Z) : Prop := d * 2 ^ Z.max 0 t <= n * 2 ^ Z.max 0 (- t).
Lemma ge2_alt n d t a c : 0 <= a -> 0 <= c -> a - c = t -> ge2 n d t <-> d * 2 ^ a <= n * 2 ^ c.
Proof.
  intros A C T. unfold ge2. set (k := Z.min a c).
  replace a with (Z.max 0 t + k) by lia. replace c with (Z.max 0 (- t) + k) by lia. rewrite !Z.pow_add_r by lia.
  assert (0 < 2 ^ k) by (apply pow2_pos; lia). rewrite !Z.mul_assoc. split; intros H0; [apply Z.mul_le_mono_nonneg_r; lia | apply Z.mul_le_mono_pos_r in H0; lia].
Qed.

Theorem rnd_rounds b n d : 0 < n -> 0 < d -> ge2 n d (emin b) -> ~ ge2 n d (emax b + prec b - 1) -> rounds b n d (rnd b n d) /\ 0 < fst (rnd b n d).
Proof.
  intros N D Lo Hi. unfold rnd. replace (n =? 0) with false by lia.
  set (s := Z.log2 n - Z.log2 d). set (t := if n * 2 ^ Z.max 0 (- s) <? d * 2 ^ Z.max 0 s then s - 1 else s).
  assert (LQ := log2_quot n d N D). cbv zeta in LQ. fold s in LQ. destruct LQ as (L1 & L2).
  assert (T : ge2 n d t /\ ~ ge2 n d (t + 1)).
  { unfold t. destruct (n * 2 ^ Z.max 0 (- s) <? d * 2 ^ Z.max 0 s) eqn:C.
    - split; [unfold ge2; replace (- (s - 1)) with (1 - s) by lia; exact L1 | unfold ge2; replace (s - 1 + 1) with s by lia; lia].
    - split; [unfold ge2; lia | unfold ge2; replace (- (s + 1)) with (- s - 1) by lia; lia]. }
  clearbody t. clear L1 L2. clearbody s. destruct T as (T1 & T2).
  assert (Mono : forall x y, x <= y -> ge2 n d y -> ge2 n d x).
  { intros x y L G. set (c := Z.max 0 (Z.max (- x) (- y))). rewrite (ge2_alt n d y (y + c) c) in G by lia. rewrite (ge2_alt n d x (x + c) c) by lia.
    eapply Z.le_trans; [|exact G]. apply Z.mul_le_mono_nonneg_l; [lia|]. apply Z.pow_le_mono_r; lia. }
  assert (Tlo : emin b <= t). { destruct (Z_le_gt_dec (emin b) t) as [L|L]; [exact L|exfalso]. apply T2. eapply Mono; [|exact Lo]. lia. }
  assert (Thi : t < emax b + prec b - 1). { destruct (Z_lt_ge_dec t (emax b + prec b - 1)) as [L|L]; [exact L|exfalso]. apply Hi. eapply Mono; [|exact T1]. lia. }
  clear Mono Lo Hi.
  assert (Pp := prec_pos b). assert (P := pow2_prec b). assert (EE := emax_emin b).
  set (e := Z.max (emin b) (t - prec b + 1)). set (n' := n * 2 ^ Z.max 0 (- e)). set (d' := d * 2 ^ Z.max 0 e).
  assert (D' : 0 < d') by (unfold d'; apply Z.mul_pos_pos; [exact D | apply pow2_pos; lia]).
  assert (Up : n' < 2 ^ prec b * d').
  { assert (X : ~ ge2 n d (e + prec b)). { intros G. apply T2. set (c := Z.max 0 (Z.max (- (e + prec b)) (- (t + 1)))). rewrite (ge2_alt n d (e + prec b) (e + prec b + c) c) in G by lia.
      rewrite (ge2_alt n d (t + 1) (t + 1 + c) c) by lia. eapply Z.le_trans; [|exact G]. apply Z.mul_le_mono_nonneg_l; [lia|]. apply Z.pow_le_mono_r; lia. }
    rewrite (ge2_alt n d (e + prec b) (prec b + Z.max 0 e) (Z.max 0 (- e))) in X by lia. rewrite Z.pow_add_r in X by lia. unfold n', d'. lia. }
  assert (Low : emin b < e -> 2 ^ (prec b - 1) * d' <= n').
  { intros He. rewrite (ge2_alt n d t (prec b - 1 + Z.max 0 e) (Z.max 0 (- e))) in T1 by lia. rewrite Z.pow_add_r in T1 by lia. unfold n', d'. lia. }
  assert (One : d' <= n').
  { assert (X : ge2 n d e). { set (c := Z.max 0 (Z.max (- e) (- t))). rewrite (ge2_alt n d e (e + c) c) by lia. rewrite (ge2_alt n d t (t + c) c) in T1 by lia.
      eapply Z.le_trans; [|exact T1]. apply Z.mul_le_mono_nonneg_l; [lia|]. apply Z.pow_le_mono_r; lia. }
    exact X. }
  set (q := n' / d'). set (r := n' mod d'). assert (DM := Z.div_mod n' d' ltac:(lia)). assert (MB := Z.mod_pos_bound n' d' D'). fold q r in DM, MB.
  set (m := if 2 * r <? d' then q else if d' <? 2 * r then q + 1 else if Z.even q then q else q + 1).
  (* n / d in units of the float *)
  set (x := n * 2 ^ (- emin b)). set (h := 2 ^ (e - emin b) * d).
  assert (Hh : 0 < h) by (unfold h; apply Z.mul_pos_pos; [apply pow2_pos; lia | exact D]).
  assert (XD : x * d' = n' * h).
  { unfold x, d', n', h. assert (2 ^ (- emin b) * 2 ^ Z.max 0 e = 2 ^ Z.max 0 (- e) * 2 ^ (e - emin b)) by (rewrite <- !Z.pow_add_r by lia; f_equal; lia).
    replace (n * 2 ^ (- emin b) * (d * 2 ^ Z.max 0 e)) with (n * d * (2 ^ (- emin b) * 2 ^ Z.max 0 e)) by ring. rewrite H. ring. }
  assert (Q1 : 1 <= q) by (apply Z.div_le_lower_bound; lia).
  assert (Q2 : q < 2 ^ prec b) by (apply Z.div_lt_upper_bound; lia).
  assert (Q3 : emin b < e -> 2 ^ (prec b - 1) <= q) by (intros He; apply Z.div_le_lower_bound; [exact D'|]; specialize (Low He); lia).
  assert (XR : (x - q * h) * d' = r * h) by (rewrite Z.mul_sub_distr_r, XD, DM; ring).
  assert (Es : forall z, Z.even (z + 1) = negb (Z.even z)) by (intros z; rewrite Z.add_1_r, Z.even_succ; apply eq_sym, Z.negb_even).
  assert (Near : (m = q /\ 0 <= 2 * (x - q * h) <= h /\ (Z.even m = false -> 2 * (x - q * h) < h)) \/
                 (m = q + 1 /\ h <= 2 * (x - q * h) < 2 * h /\ (Z.even m = false -> h < 2 * (x - q * h)))).
  { assert (V : forall c, (c * h <= 2 * (x - q * h) <-> c * d' <= 2 * r) /\ (2 * (x - q * h) < c * h <-> 2 * r < c * d')).
    { intros c. clear - XR D' Hh. generalize dependent (x - q * h). intros z Z. split; split; intros L.
      - apply (Z.mul_le_mono_pos_r _ _ h Hh). replace (2 * r * h) with (2 * z * d') by lia. replace (c * d' * h) with (c * h * d') by ring. apply Z.mul_le_mono_nonneg_r; lia.
      - apply (Z.mul_le_mono_pos_r _ _ d' D'). replace (2 * z * d') with (2 * r * h) by lia. replace (c * h * d') with (c * d' * h) by ring. apply Z.mul_le_mono_nonneg_r; lia.
      - apply (Z.mul_lt_mono_pos_r h _ _ Hh). replace (2 * r * h) with (2 * z * d') by lia. replace (c * d' * h) with (c * h * d') by ring. apply Z.mul_lt_mono_pos_r; lia.
      - apply (Z.mul_lt_mono_pos_r d' _ _ D'). replace (2 * z * d') with (2 * r * h) by lia. replace (c * h * d') with (c * d' * h) by ring. apply Z.mul_lt_mono_pos_r; lia. }
    assert (V3 : h < 2 * (x - q * h) <-> d' < 2 * r).
    { clear - XR D' Hh. generalize dependent (x - q * h). intros z Z. split; intros L.
      - apply (Z.mul_lt_mono_pos_r h _ _ Hh). replace (2 * r * h) with (2 * z * d') by lia. rewrite (Z.mul_comm d' h). apply Z.mul_lt_mono_pos_r; lia.
      - apply (Z.mul_lt_mono_pos_r d' _ _ D'). replace (2 * z * d') with (2 * r * h) by lia. rewrite (Z.mul_comm h d'). apply Z.mul_lt_mono_pos_r; lia. }
    assert (V0 := V 0). assert (V1 := V 1). assert (V2 := V 2). clear V.
    assert (Em : m = (if 2 * r <? d' then q else if d' <? 2 * r then q + 1 else if Z.even q then q else q + 1)) by reflexivity.
    assert (Eq := Es q). clearbody m. clear - V0 V1 V2 V3 Em Eq MB Hh D'. set (z := x - q * h) in *. clearbody z.
    revert Em. destruct (2 * r <? d') eqn:C1; [intros ->; left; split; [reflexivity|]; split; [|intros _]; lia|].
    destruct (d' <? 2 * r) eqn:C2; [intros ->; right; split; [reflexivity|]; split; [|intros _]; lia|].
    destruct (Z.even q) eqn:Ev; intros ->.
    - left. rewrite Ev. split; [reflexivity|]. split; [lia | discriminate].
    - right. rewrite Eq. cbn [negb]. split; [reflexivity|]. split; [lia | discriminate]. }
  clearbody m. clear XR XD DM MB Up Low One T1 T2 Es. clearbody q. clear r. clear D'. clear d' n'.
  assert (Mb : 1 <= m <= 2 ^ prec b) by lia.
  assert (Xlow : emin b < e -> 2 ^ (prec b - 1) * h <= x) by (intros He; specialize (Q3 He); apply Z.le_trans with (q * h); [apply Z.mul_le_mono_nonneg_r; lia | clear - Near Hh; lia]).
  destruct (m =? 2 ^ prec b) eqn:Em.
  - (* rounded up to a power of two *)
    split; [|cbn [fst]; apply pow2_pos; lia].
    assert (Emax : e + 1 <= emax b) by lia.
    apply inside_rounds; [unfold float_of; cbn [fst snd]; rewrite Z.abs_eq by (apply Z.lt_le_incl, pow2_pos; lia); split; [lia|]; split; [|left; lia]; assert (0 < 2 ^ (prec b - 1)) by (apply pow2_pos; lia); lia | cbn [fst]; apply pow2_pos; lia | exact D|].
    unfold inside, lower_half. cbn [fst snd]. rewrite even_half, Z.eqb_refl. replace (emin b <? e + 1) with true by lia. cbn [andb].
    replace (e + 1 - emin b) with (e - emin b + 1) by lia. rewrite pow2_S by lia. fold x.
    replace (2 * 2 ^ (e - emin b) * d) with (2 * h) by (unfold h; ring).
    destruct Near as [(Mq & _)|(Mq & Nr & _)]; [lia|]. assert (X : (q + 1) * h = 2 ^ (prec b - 1) * (2 * h)) by (replace (q + 1) with (2 ^ prec b) by lia; rewrite P; ring).
    apply andb_true_intro. split; lia.
  - split; [|cbn [fst]; lia].
    assert (Fl : float_of b (m, e)). { unfold float_of. cbn [fst snd]. destruct (Z.eq_dec e (emin b)) as [He|He]; [lia|]. specialize (Q3 ltac:(lia)). lia. }
    apply inside_rounds; [exact Fl | cbn [fst]; lia | exact D|].
    unfold inside. cbn [fst snd]. fold x h. apply andb_true_intro. split.
    + destruct Near as [(-> & A & B)|(-> & A & B)]; destruct (Z.even _); try specialize (B eq_refl); lia.
    + unfold lower_half. cbn [fst snd]. destruct ((m =? 2 ^ (prec b - 1)) && (emin b <? e)) eqn:Lh.
      * specialize (Xlow ltac:(lia)). replace m with (2 ^ (prec b - 1)) by lia. lia.
      * destruct Near as [(-> & A & B)|(-> & A & B)]; destruct (Z.even _); try specialize (B eq_refl); lia.
Qed.

(** ** Errors in the normal range of float64 *)
Lemma rounds_near n d m e : rounds true n d (m, e) -> 0 < m -> 0 < d -> e <= 0 -> 2 * Z.abs (n * 2 ^ (- e) - m * d) <= d.
Proof.
  intros R Hm Hd He. assert (Hf : -1074 <= e) by apply R. apply rounds_inside in R; [|exact Hm | exact Hd].
  unfold inside in R. cbn [fst snd emin] in R. replace (- (-1074)) with (- e + (e + 1074)) in R by lia. replace (e - -1074) with (e + 1074) in R by lia.
  rewrite Z.pow_add_r in R by lia. assert (P : 0 < 2 ^ (e + 1074)) by (apply pow2_pos; lia). set (p := 2 ^ (e + 1074)) in *. clearbody p.
  replace (n * (2 ^ (- e) * p)) with (n * 2 ^ (- e) * p) in R by ring. set (x := n * 2 ^ (- e)) in *. clearbody x.
  replace (m * (p * d)) with (m * d * p) in R by ring. set (y := m * d) in *. clearbody y.
  replace (p * d) with (d * p) in R by ring. apply andb_prop in R. destruct R as [R1 R2].
  assert (U1 : 2 * x * p <= (2 * y + d) * p) by (destruct (Z.even m); lia).
  assert (U2 : (2 * y - d) * p <= 2 * x * p). { assert (0 < d * p) by (apply Z.mul_pos_pos; lia). destruct (lower_half true (m, e)); [lia|]. destruct (Z.even m); lia. }
  apply Z.mul_le_mono_pos_r in U1; [|exact P]. apply Z.mul_le_mono_pos_r in U2; [|exact P]. lia.
Qed.

(** A quotient in the normal range. *)
Definition in_range (n d : Z) : Prop := 0 < n /\ 0 < d /\ d <= n * 2 ^ 100 /\ n < d * 2 ^ 52.

Lemma rnd_range n d m e : in_range n d -> rnd true n d = (m, e) -> rounds true n d (m, e) /\ 2 ^ 52 <= m /\ -1074 < e <= 0 /\ 2 * Z.abs (n * 2 ^ (- e) - m * d) <= d.
Proof.
  intros (Hn & Hd & L & U) E. destruct (rnd_rounds true n d Hn Hd) as [R Hm].
  - unfold ge2. cbn [emin]. change (Z.max 0 (- (-1074))) with (100 + 974). change (2 ^ Z.max 0 (-1074)) with 1. rewrite Z.pow_add_r by lia. assert (1 <= 2 ^ 974) by (apply Z.lt_le_incl; reflexivity).
    set (q := 2 ^ 974) in *. clearbody q. set (c := 2 ^ 100) in *. assert (0 < c) by reflexivity. clearbody c. assert (n * c * 1 <= n * c * q) by (apply Z.mul_le_mono_nonneg_l; [apply Z.lt_le_incl, Z.mul_pos_pos; assumption | assumption]). lia.
  - unfold ge2. cbn [emax prec]. change (Z.max 0 (971 + 53 - 1)) with (52 + 971). change (2 ^ Z.max 0 (- (971 + 53 - 1))) with 1. rewrite Z.pow_add_r by lia. assert (1 <= 2 ^ 971) by (apply Z.lt_le_incl; reflexivity).
    set (q := 2 ^ 971) in *. clearbody q. set (c := 2 ^ 52) in *. assert (0 < c) by reflexivity. clearbody c. assert (d * c * 1 <= d * c * q) by (apply Z.mul_le_mono_nonneg_l; [apply Z.lt_le_incl, Z.mul_pos_pos; assumption | assumption]). lia.
  - rewrite E in R, Hm. cbn [fst] in Hm. split; [exact R|].
    assert (F : float_of true (m, e)) by apply R. unfold float_of in F. cbn [fst snd prec emin emax] in F. change (53 - 1) with 52 in F. rewrite Z.abs_eq in F by lia.
    assert (N := fun He => rounds_near n d m e R Hm Hd He).
    assert (He : e <= 0).
    { destruct (Z_le_gt_dec e 0) as [X|X]; [exact X|exfalso]. assert (M52 : 2 ^ 52 <= m) by lia. assert (I := rounds_inside true n d (m, e) Hm Hd R). unfold inside in I. cbn [fst snd emin] in I. apply andb_prop in I. destruct I as [_ I].
      replace (- (-1074)) with 1074 in I by lia. replace (e - -1074) with (1075 + (e - 1)) in I by lia. rewrite Z.pow_add_r in I by lia. change (2 ^ 1075) with (2 * 2 ^ 1074) in I.
      assert (P : 0 < 2 ^ 1074) by reflexivity. set (p := 2 ^ 1074) in *. clearbody p. assert (Q : 1 <= 2 ^ (e - 1)) by (assert (0 < 2 ^ (e - 1)) by (apply pow2_pos; lia); lia). set (q := 2 ^ (e - 1)) in *. clearbody q.
      replace (2 * p * q * d) with (2 * (d * q) * p) in I by ring. set (y := d * q) in *. assert (Y : d <= y) by (unfold y; nia). clearbody y.
      replace (m * (2 * y * p)) with (2 * (m * y) * p) in I by ring. assert (Z1 : 2 ^ 52 * y <= m * y) by (apply Z.mul_le_mono_nonneg_r; lia). set (z := m * y) in *. clearbody z.
      assert (I' : (4 * z - 2 * y) * p <= 2 * n * p). { assert (0 < y * p) by (apply Z.mul_pos_pos; lia). destruct (lower_half true (m, e)); [lia|]. destruct (Z.even m); lia. }
      apply Z.mul_le_mono_pos_r in I'; [|exact P]. change (2 ^ 52) with 4503599627370496 in *. lia. }
    specialize (N He).
    assert (He' : -1074 < e).
    { destruct (Z.eq_dec e (-1074)) as [->|X]; [exfalso|lia]. change (- (-1074)) with (100 + 974) in N. rewrite Z.pow_add_r in N by lia. assert (2 ^ 60 <= 2 ^ 974) by (apply Z.lt_le_incl; reflexivity).
      set (q := 2 ^ 974) in *. clearbody q. replace (n * (2 ^ 100 * q)) with (n * 2 ^ 100 * q) in N by ring. assert (B : d * 2 ^ 60 <= n * 2 ^ 100 * q) by (apply Z.mul_le_mono_nonneg; lia).
      set (x := n * 2 ^ 100 * q) in *. clearbody x. destruct F as (_ & F & _). assert (B2 : m * d <= 2 ^ 53 * d) by (apply Z.mul_le_mono_nonneg_r; lia).
      set (y := m * d) in *. clearbody y. change (2 ^ 53) with 9007199254740992 in B2. change (2 ^ 60) with 1152921504606846976 in B. lia. }
    split; [lia|]. split; [lia | exact N].
Qed.

(** Integers are exact. *)
Lemma rnd_int n : 0 < n < 2 ^ 52 -> forall d, 0 < d -> exists k, 0 <= k < 1074 /\ rnd true (n * d) d = (n * 2 ^ k, - k).
Proof.
  intros Hn d Hd. destruct (rnd true (n * d) d) as [m e] eqn:E.
  destruct (rnd_range (n * d) d m e) as (R & M & He & N); [|exact E|].
  - split; [apply Z.mul_pos_pos; lia|]. split; [exact Hd|]. split; [|rewrite (Z.mul_comm n); apply Z.mul_lt_mono_pos_l; lia].
    set (c := 2 ^ 100). assert (1 <= c) by (apply Z.lt_le_incl; reflexivity). clearbody c. replace (n * d * c) with (d * (n * c)) by ring. rewrite <- (Z.mul_1_r d) at 1. apply Z.mul_le_mono_nonneg_l; [lia|]. nia.
  - exists (- e). split; [lia|]. f_equal; [|lia]. replace (n * d * 2 ^ (- e) - m * d) with ((n * 2 ^ (- e) - m) * d) in N by ring. rewrite Z.abs_mul, (Z.abs_eq d) in N by lia.
    set (z := n * 2 ^ (- e) - m) in *. assert (z = 0); [|unfold z in *; lia]. clearbody z. nia.
Qed.

(** ** Duration.Minutes and Seconds *)
Theorem dur_abs_spec mins a m e : 0 < a <= 2 ^ 63 -> dur_abs mins a = (m, e) ->
  float_of true (m, e) /\ 0 < m /\ e <= 0 /\ 2 ^ 51 * Z.abs (m * dur_unit mins - a * 2 ^ (- e)) <= a * 2 ^ (- e) /\
  (a mod dur_unit mins = 0 -> m * dur_unit mins = a * 2 ^ (- e)).
Proof.
  intros Ha. unfold dur_abs. set (u := dur_unit mins). assert (Hu : 1000000000 <= u <= 60000000000) by (unfold u, dur_unit; destruct mins; lia). clearbody u.
  set (i := a / u). set (r := a mod u). assert (DM := Z.div_mod a u ltac:(lia)). assert (MB := Z.mod_pos_bound a u ltac:(lia)). fold i r in DM, MB.
  assert (Hi : 0 <= i < 1000000000000) by (change (2 ^ 63) with 9223372036854775808 in Ha; split; [apply Z.div_pos; lia | apply Z.div_lt_upper_bound; lia]).
  clearbody i r.
  assert (FI : forall n, 0 <= n < 1000000000000 -> exists k, 0 <= k <= 1074 /\ fl_int n = (n * 2 ^ k, - k)).
  { intros n Hn.  destruct (Z.eq_dec n 0) as [->|N0]; [exists 1074; split; [lia | reflexivity]|].
    destruct (rnd_int n ltac:(change (2 ^ 52) with 4503599627370496; lia) 1 ltac:(lia)) as (k & Hk & E). rewrite Z.mul_1_r in E. exists k. split; [lia | exact E]. }
  destruct (FI i Hi) as (k & Hk & ->).
  destruct (FI r ltac:(lia)) as (ka & Hka & ->). destruct (FI u ltac:(lia)) as (kb & Hkb & ->). clear FI.
  (* the fraction *)
  assert (FD : exists mf k1, 0 <= k1 <= 1074 /\ fl_div (r * 2 ^ ka, - ka) (u * 2 ^ kb, - kb) = (mf, - k1) /\ (r = 0 /\ mf = 0 \/ 0 < r /\ 2 ^ 52 <= mf /\ 2 * Z.abs (r * 2 ^ k1 - mf * u) <= u)).
  { unfold fl_div. cbn [fst snd]. destruct (Z.eq_dec r 0) as [->|R0]; [exists 0, 1074; split; [lia|]; split; [reflexivity | left; auto]|].
    set (c := Z.max ka kb). replace (r * 2 ^ ka * 2 ^ Z.max 0 (- ka - - kb)) with (r * 2 ^ c) by (rewrite <- Z.mul_assoc, <- Z.pow_add_r by lia; do 2 f_equal; lia).
    replace (u * 2 ^ kb * 2 ^ Z.max 0 (- kb - - ka)) with (u * 2 ^ c) by (rewrite <- Z.mul_assoc, <- Z.pow_add_r by lia; do 2 f_equal; lia).
    assert (C : 0 < 2 ^ c) by (apply pow2_pos; lia). set (p := 2 ^ c) in *. clearbody p.
    destruct (rnd true (r * p) (u * p)) as [mf ef] eqn:E. destruct (rnd_range (r * p) (u * p) mf ef) as (R & M & He & N); [|exact E|].
    - split; [apply Z.mul_pos_pos; lia|]. split; [apply Z.mul_pos_pos; lia|]. split.
      + replace (r * p * 2 ^ 100) with (r * 2 ^ 100 * p) by ring. apply Z.mul_le_mono_nonneg_r; [lia|]. change (2 ^ 100) with 1267650600228229401496703205376. lia.
      + replace (u * p * 2 ^ 52) with (u * 2 ^ 52 * p) by ring. apply Z.mul_lt_mono_pos_r; [exact C|]. change (2 ^ 52) with 4503599627370496. lia.
    - exists mf, (- ef). split; [lia|]. split; [f_equal; lia|]. right. split; [lia|]. split; [exact M|].
      replace (r * p * 2 ^ (- ef) - mf * (u * p)) with ((r * 2 ^ (- ef) - mf * u) * p) in N by ring. rewrite Z.abs_mul, (Z.abs_eq p) in N by lia. rewrite Z.mul_assoc in N.
      apply Z.mul_le_mono_pos_r in N; [exact N | exact C]. }
  destruct FD as (mf & k1 & Hk1 & -> & FD). unfold fl_add. cbn [fst snd].
  set (c := Z.max k k1). replace (Z.min (- k) (- k1)) with (- c) by lia. replace (Z.max 0 (- c)) with 0 by lia. replace (Z.max 0 (- - c)) with c by lia. change (2 ^ 0) with 1.
  replace (- k - - c) with (c - k) by lia. replace (- k1 - - c) with (c - k1) by lia.
  replace (i * 2 ^ k * 2 ^ (c - k)) with (i * 2 ^ c) by (rewrite <- Z.mul_assoc, <- Z.pow_add_r by lia; do 2 f_equal; lia). rewrite Z.mul_1_r.
  assert (Pc : 2 ^ c = 2 ^ k1 * 2 ^ (c - k1)) by (rewrite <- Z.pow_add_r by lia; f_equal; lia).
  assert (C1 : 0 < 2 ^ (c - k1)) by (apply pow2_pos; lia). assert (K1 : 0 < 2 ^ k1) by (apply pow2_pos; lia).
  assert (K1u : 2 ^ k1 <= 2 ^ 1074) by (apply Z.pow_le_mono_r; lia).
  clear Hk Hka Hkb K1u. intros E.
  assert (Hc : 0 <= c) by lia. clearbody c.
  destruct FD as [[-> ->]|(R0 & M1 & N1)].
  - (* whole *)
    replace (i * 2 ^ c + 0 * 2 ^ (c - k1)) with (i * 2 ^ c) in E by lia. assert (I0 : 0 < i) by (clear - Ha DM Hu; nia).
    assert (PC : 0 < 2 ^ c) by (apply pow2_pos; lia).
    destruct (rnd_int i ltac:(change (2 ^ 52) with 4503599627370496; lia) (2 ^ c) PC) as (k2 & Hk2 & E'). rewrite E in E'. injection E' as -> ->.
    destruct (rnd_range (i * 2 ^ c) (2 ^ c) (i * 2 ^ k2) (- k2)) as (R & M & He & N); [|exact E|].
    + split; [apply Z.mul_pos_pos; assumption|]. split; [exact PC|]. set (p := 2 ^ c) in *. clearbody p. split.
      * replace (i * p * 2 ^ 100) with (p * (i * 2 ^ 100)) by ring. rewrite <- (Z.mul_1_r p) at 1. apply Z.mul_le_mono_nonneg_l; [lia|]. change (2 ^ 100) with 1267650600228229401496703205376. lia.
      * rewrite (Z.mul_comm i). apply Z.mul_lt_mono_pos_l; [exact PC|]. change (2 ^ 52) with 4503599627370496. lia.
    + rewrite Z.opp_involutive. assert (X : i * 2 ^ k2 * u = a * 2 ^ k2) by (rewrite DM; ring). rewrite X, Z.sub_diag. split; [apply R|]. split; [lia|]. split; [lia|]. split; [|reflexivity].
      change (Z.abs 0) with 0. rewrite Z.mul_0_r. apply Z.mul_nonneg_nonneg; [lia|]. apply Z.lt_le_incl, pow2_pos. lia.
  - set (g := 2 ^ (c - k1)) in *. set (h := 2 ^ k1) in *. set (nn := i * 2 ^ c + mf * g) in *.
    assert (PC : 0 < 2 ^ c) by (apply pow2_pos; lia). assert (En : nn = (i * h + mf) * g) by (unfold nn; rewrite Pc; ring). clearbody nn. rewrite Pc in *. clearbody g h.
    assert (Mu : mf * u <= (h + 1) * u) by (assert (r * h <= u * h) by (apply Z.mul_le_mono_nonneg_r; lia); lia).
    apply Z.mul_le_mono_pos_r in Mu; [|lia].
    assert (Ml : h <= mf * 2 ^ 40).
    { assert (h <= r * h) by (rewrite <- (Z.mul_1_l h) at 1; apply Z.mul_le_mono_nonneg_r; lia). change (2 ^ 52) with 4503599627370496 in M1.
      assert (mf * u <= mf * 60000000000) by (apply Z.mul_le_mono_nonneg_l; lia). change (2 ^ 40) with 1099511627776. lia. }
    assert (IH : 0 <= i * h) by (apply Z.mul_nonneg_nonneg; lia).
    destruct (rnd_range nn (h * g) m e) as (R & M & He & N); [|exact E|].
    + split; [rewrite En; apply Z.mul_pos_pos; lia|]. split; [exact PC|]. rewrite En. split.
      * replace ((i * h + mf) * g * 2 ^ 100) with ((i * h + mf) * 2 ^ 100 * g) by ring. apply Z.mul_le_mono_nonneg_r; [lia|]. change (2 ^ 100) with 1267650600228229401496703205376. change (2 ^ 40) with 1099511627776 in Ml. lia.
      * replace (h * g * 2 ^ 52) with (h * 2 ^ 52 * g) by ring. apply Z.mul_lt_mono_pos_r; [exact C1|]. assert (i * h <= 1000000000000 * h) by (apply Z.mul_le_mono_nonneg_r; lia). change (2 ^ 52) with 4503599627370496. lia.
    + split; [apply R|]. split; [lia|]. split; [lia|]. split; [|intros C; lia].
      assert (K2 : 0 < 2 ^ (- e)) by (apply pow2_pos; lia). set (q := 2 ^ (- e)) in *. clearbody q. change (2 ^ 52) with 4503599627370496 in *.
      set (A := a * q * (h * g)). set (C := nn * u * q). set (B := m * u * (h * g)).
      assert (CB : 9007199254740992 * Z.abs (C - B) <= B).
      { replace (C - B) with ((nn * q - m * (h * g)) * u) by (unfold C, B; ring). rewrite Z.abs_mul, (Z.abs_eq u) by lia. unfold B.
        assert (X1 : 2 * Z.abs (nn * q - m * (h * g)) * u <= h * g * u) by (apply Z.mul_le_mono_nonneg_r; lia).
        assert (X2 : 4503599627370496 * (u * (h * g)) <= m * (u * (h * g))) by (apply Z.mul_le_mono_nonneg_r; [apply Z.mul_nonneg_nonneg; lia | exact M]). lia. }
      assert (AC : 9007199254740992 * Z.abs (A - C) <= C).
      { replace (A - C) with ((r * h - mf * u) * (g * q)) by (unfold A, C; rewrite En, DM; ring).
        assert (GQ : 0 < g * q) by (apply Z.mul_pos_pos; lia). rewrite Z.abs_mul, (Z.abs_eq (g * q)) by lia.
        assert (X1 : 2 * Z.abs (r * h - mf * u) * (g * q) <= u * (g * q)) by (apply Z.mul_le_mono_nonneg_r; lia).
        assert (X2 : 4503599627370496 * (u * (g * q)) <= (i * h + mf) * (u * (g * q))) by (apply Z.mul_le_mono_nonneg_r; [apply Z.mul_nonneg_nonneg; lia | lia]).
        unfold C. rewrite En. replace ((i * h + mf) * g * u * q) with ((i * h + mf) * (u * (g * q))) by ring. lia. }
      assert (AB : 2251799813685248 * Z.abs (A - B) <= A) by (clear - AC CB; clearbody A B C; lia).
      apply (Z.mul_le_mono_pos_r _ _ (h * g) PC). change (2 ^ 51) with 2251799813685248.
      replace (2251799813685248 * Z.abs (m * u - a * q) * (h * g)) with (2251799813685248 * Z.abs (A - B)); [exact AB|].
      replace (A - B) with (- ((m * u - a * q) * (h * g))) by (unfold A, B; ring). rewrite Z.abs_opp, Z.abs_mul, (Z.abs_eq (h * g)) by lia. ring.
Qed.
