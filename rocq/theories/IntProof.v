(** Decimal integers. *)
From Verif Require Import Base JsonSpec IntModel.

(** ** Specification: the value of a digit string *)
Definition dval (ds : bytes) : Z := fold_left (fun a d => a * 10 + (d - 48)) ds 0.

(** A canonical decimal integer literal and its value. *)
Inductive int_lit : bytes -> Z -> Prop :=
| il_zero : int_lit [48] 0
| il_pos ds : jint ds -> ds <> [48] -> int_lit ds (dval ds)
| il_neg ds : jint ds -> ds <> [48] -> int_lit (45 :: ds) (- dval ds).

Lemma dval_acc ds a : fold_left (fun a d => a * 10 + (d - 48)) ds a = a * 10 ^ Z.of_nat (length ds) + dval ds.
Proof.
  unfold dval. revert a. induction ds as [|d ds IH]; intros a; cbn [fold_left length].
  - change (10 ^ Z.of_nat 0) with 1. lia.
  - rewrite IH. rewrite (IH (0 * 10 + (d - 48))). rewrite Nat2Z.inj_succ, Z.pow_succ_r by lia. ring.
Qed.

Lemma dval_cons d ds : dval (d :: ds) = (d - 48) * 10 ^ Z.of_nat (length ds) + dval ds.
Proof. unfold dval at 1. cbn [fold_left]. rewrite dval_acc. ring. Qed.

Lemma dval_app a b : dval (a ++ b) = dval a * 10 ^ Z.of_nat (length b) + dval b.
Proof. unfold dval at 1. rewrite fold_left_app, dval_acc. reflexivity. Qed.

Lemma dval_bound ds : Forall digit ds -> 0 <= dval ds < 10 ^ Z.of_nat (length ds).
Proof.
  induction 1 as [|d ds Hd H IH]; [cbn; lia|]. rewrite dval_cons. cbn [length].
  rewrite Nat2Z.inj_succ, Z.pow_succ_r by lia. unfold digit in Hd. nia.
Qed.

(** ** The digits produced *)
Lemma udec_spec fuel : forall n acc, 0 <= n < 2 ^ Z.of_nat fuel ->
  exists ds, udec fuel n acc = ds ++ acc /\ Forall digit ds /\ dval ds = n /\
    (n = 0 -> (0 < fuel)%nat -> ds = [48]) /\ (0 < n -> exists d t, ds = d :: t /\ 49 <= d <= 57).
Proof.
  induction fuel as [|f IH]; intros n acc H.
  - change (2 ^ Z.of_nat 0) with 1 in H. exists []. cbn. repeat split; auto; try lia.
  - cbn [udec]. rewrite Nat2Z.inj_succ, Z.pow_succ_r in H by lia.
    destruct (n <? 10) eqn:E.
    + exists [48 + n]. split; [reflexivity|]. split; [constructor; [unfold digit; lia | constructor]|].
      split; [cbn; lia|]. split; [intros ->; reflexivity|]. intros Hn. exists (48 + n), []. split; [reflexivity | lia].
    + destruct (IH (n / 10) ((48 + n mod 10) :: acc)) as (ds & E1 & Hd & Hv & _ & Hp).
      { split; [lia|]. assert (n / 10 <= n / 2) by (apply Z.div_le_compat_l; lia). lia. }
      exists (ds ++ [48 + n mod 10]). split; [rewrite E1, <- app_assoc; reflexivity|].
      split; [apply Forall_app; split; [assumption | constructor; [unfold digit; lia | constructor]]|].
      split; [rewrite dval_app, Hv; cbn [length]; change (10 ^ Z.of_nat 1) with 10; unfold dval; cbn [fold_left]; lia|].
      split; [intros; lia|]. intros Hn. destruct (Hp ltac:(lia)) as (d & t & -> & Hd').
      exists d, (t ++ [48 + n mod 10]). auto.
Qed.

Lemma log2_fuel n : 0 <= n -> 0 <= n < 2 ^ Z.of_nat (S (Z.to_nat (Z.log2 n))).
Proof.
  intros H. split; [assumption|]. rewrite Nat2Z.inj_succ, Z2Nat.id by apply Z.log2_nonneg.
  destruct (Z.eq_dec n 0) as [->|Hne]; [cbn; lia|]. apply Z.log2_spec. lia.
Qed.

Lemma dec_digits_spec n : 0 <= n -> jint (dec_digits n) /\ dval (dec_digits n) = n /\ (dec_digits n = [48] <-> n = 0).
Proof.
  intros H. unfold dec_digits.
  destruct (udec_spec _ n [] (log2_fuel n H)) as (ds & E & Hd & Hv & H0 & Hp). rewrite E, app_nil_r.
  destruct (Z.eq_dec n 0) as [->|Hne].
  - rewrite (H0 eq_refl) by lia. split; [constructor|]. split; [reflexivity|]. tauto.
  - destruct (Hp ltac:(lia)) as (d & t & -> & Hd'). inversion Hd; subst.
    split; [constructor; assumption|]. split; [reflexivity|]. split; [|tauto].
    intros Ed. injection Ed as -> ->. exfalso. lia.
Qed.

Lemma dec_digits_digits n : 0 <= n -> Forall digit (dec_digits n) /\ dec_digits n <> [].
Proof.
  intros H. destruct (dec_digits_spec n H) as (J & _ & _). destruct J.
  - split; [repeat constructor; unfold digit; lia | discriminate].
  - split; [constructor; [unfold digit; lia | assumption] | discriminate].
Qed.

Lemma append_int_spec dst n : exists s, append_int dst n = dst ++ s /\ int_lit s n.
Proof.
  unfold append_int. destruct (n <? 0) eqn:E.
  - destruct (dec_digits_spec (- n) ltac:(lia)) as (J & V & Z0).
    exists (45 :: dec_digits (- n)). split; [reflexivity|].
    assert (n = - dval (dec_digits (- n))) as En by lia. rewrite En at 2. constructor; [assumption|]. rewrite Z0. lia.
  - destruct (dec_digits_spec n ltac:(lia)) as (J & V & Z0). exists (dec_digits n). split; [reflexivity|].
    destruct (Z.eq_dec n 0) as [->|Hne]; [constructor|].
    rewrite <- V at 2. constructor; [assumption|]. rewrite Z0. lia.
Qed.

Lemma append_uint_spec dst n : 0 <= n -> exists s, append_uint dst n = dst ++ s /\ int_lit s n.
Proof.
  intros H. unfold append_uint. destruct (dec_digits_spec n H) as (J & V & Z0). exists (dec_digits n). split; [reflexivity|].
  destruct (Z.eq_dec n 0) as [->|Hne]; [constructor|]. rewrite <- V at 2. constructor; [assumption|]. rewrite Z0. lia.
Qed.

(** ** Integer literals are JSON numbers, and injective *)
Lemma int_lit_jnumber s n : int_lit s n -> jnumber s.
Proof.
  intros [|ds J _|ds J _].
  - exists [], [48], [], []. repeat split; try constructor. auto.
  - exists [], ds, [], []. rewrite !app_nil_r. repeat split; auto; constructor.
  - exists [45], ds, [], []. rewrite !app_nil_r. repeat split; auto; constructor.
Qed.

Lemma jint_pos_val ds : jint ds -> ds <> [48] -> 0 < dval ds.
Proof.
  intros [|d t Hd Ht] Hne; [congruence|]. rewrite dval_cons. assert (B := dval_bound t Ht).
  assert (0 < 10 ^ Z.of_nat (length t)) by (apply Z.pow_pos_nonneg; lia). nia.
Qed.

Lemma int_lit_det s n1 n2 : int_lit s n1 -> int_lit s n2 -> n1 = n2.
Proof.
  intros [|ds J N|ds J N] H2; inversion H2; subst; try reflexivity; try congruence.
  - inversion J; subst. lia.
  - match goal with H : jint (45 :: _) |- _ => inversion H; subst; lia end.
Qed.

(** ** Ranges *)
Lemma wrap_i_id w n : 0 < w -> - 2 ^ (w - 1) <= n < 2 ^ (w - 1) -> wrap_i w n = n.
Proof.
  intros Hw H. unfold wrap_i. replace (2 ^ w) with (2 * 2 ^ (w - 1)).
  - rewrite Z.mod_small by lia. lia.
  - rewrite <- Z.pow_succ_r by lia. f_equal. lia.
Qed.

Lemma int_range_64 k n : int_range k n -> if signed k then - 2 ^ 63 <= n < 2 ^ 63 else 0 <= n < 2 ^ 64.
Proof. unfold int_range. destruct k; cbn; lia. Qed.

Lemma encode_int_spec k n dst : int_range k n -> exists s, encode_int k n dst = dst ++ s /\ int_lit s n.
Proof.
  intros H. apply int_range_64 in H. unfold encode_int. destruct (signed k).
  - rewrite wrap_i_id by (try lia; exact H). apply append_int_spec.
  - unfold wrap_u. rewrite Z.mod_small by assumption. apply append_uint_spec. lia.
Qed.
