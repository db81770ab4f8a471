(** appendRFC3339Time writes inside its 37-byte array for every time that
    encodeTime gives it (years 0 to 9999), and always at least 22 bytes. *)
From Verif Require Import Base IntModel BufModel CalendarSpec TypesModel OptionsModel DurationModel TimeModel TimeProof.

Definition len_is (n : nat) (r : option bytes) : Prop := exists b, r = Some b /\ length b = n.

Lemma len_bset N b i v (k : bytes -> option bytes) : length b = N -> (i < N)%nat ->
  (forall b', length b' = N -> len_is N (k b')) -> len_is N (match bset b i v with Some x => k x | None => None end).
Proof. intros Hb Hi Hk. rewrite bset_ok by lia. apply Hk. rewrite set_nth_length. exact Hb. Qed.

Lemma len_put k : forall N b base y, length b = N -> (base + k < N)%nat -> len_is N (put_digits k b base y).
Proof.
  induction k as [|k IH]; intros N b base y Hb Hk; cbn [put_digits]; [exists b; auto|].
  apply len_bset; [exact Hb | lia|]. intros b' Hb'. apply IH; [exact Hb' | lia].
Qed.

Lemma rfc_head_len sec : rdnToYmd (u32 (Z.quot sec 86400)) <> None -> len_is 37 (rfc_head sec).
Proof.
  intros Hr. unfold rfc_head.
  do 6 (apply len_bset; [rewrite ?repeat_length; auto | lia | intros ? ?]).
  destruct (rdnToYmd _) as [[[y mo] d]|]; [|congruence].
  match goal with |- len_is _ (match ?x with Some _ => _ | None => _ end) => assert (X : len_is 37 x) by (apply len_put; [assumption | lia]); destruct X as (b & -> & Lb) end.
  do 9 (apply len_bset; [auto | lia | intros ? ?]).
  eexists. rewrite bset_ok by lia. split; [reflexivity | rewrite set_nth_length; assumption].
Qed.

Lemma rdn_small r : -366 <= r <= 0 -> rdnToYmd (u32 r) <> None.
Proof.
  assert (A : forallb (fun k => match rdnToYmd (u32 (- Z.of_nat k)) with Some _ => true | None => false end) (seq 0 367) = true) by (vm_compute; reflexivity).
  intros Hr X. rewrite forallb_forall in A. specialize (A (Z.to_nat (- r))). replace (- Z.of_nat (Z.to_nat (- r))) with r in A by lia.
  rewrite X in A. discriminate A. apply in_seq. lia.
Qed.

Lemma frac_len nano ns b : length b = 37%nat -> exists b' n, frac_step nano ns b 20 = Some (b', n) /\ length b' = 37%nat /\ (20 <= n <= 30)%nat.
Proof.
  intros Hb. unfold frac_step. destruct (nano && negb (ns =? 0)); [|exists b, 20%nat; split; [reflexivity | lia]].
  rewrite bset_ok by lia. assert (X : len_is 37 (put_digits 9 (set_nth b 20 46) 20 ns)) by (apply len_put; [rewrite set_nth_length; exact Hb | lia]).
  destruct X as (b' & -> & Lb). eexists. eexists. split; [reflexivity|]. split; [exact Lb|]. lia.
Qed.

Lemma zone_len off b n : length b = 37%nat -> (20 <= n <= 30)%nat -> exists b' n', zone_step off b n = Some (b', n') /\ length b' = 37%nat /\ (21 <= n' <= 36)%nat.
Proof.
  intros Hb Hn. unfold zone_step. destruct (off =? 0).
  - rewrite bset_ok by lia. eexists. eexists. split; [reflexivity|]. rewrite set_nth_length. lia.
  - assert (S : forall b i v, length b = 37%nat -> (i < 37)%nat -> exists b', bset b i v = Some b' /\ length b' = 37%nat).
    { intros b0 i v L0 Hi. rewrite bset_ok by lia. eexists. split; [reflexivity | rewrite set_nth_length; exact L0]. }
    repeat match goal with |- context [match bset ?b ?i ?v with Some _ => _ | None => _ end] =>
      let X := fresh in destruct (S b i v) as (? & X & ?); [assumption | lia | rewrite X; clear X] end.
    eexists. eexists. split; [reflexivity|]. split; [assumption | lia].
Qed.

Theorem rfc3339_total t dst nano : gtime_ok t -> 0 <= time_year t <= 9999 ->
  exists s, appendRFC3339Time t dst nano = Some (dst ++ s) /\ (22 <= length s)%nat.
Proof.
  intros (Hu & Hns & Hoff) Hy. assert (Ys := time_year_correct t). set (L := t_unix t + t_offset t) in *.
  set (n := L / 86400 + 719163) in *.
  assert (Hn : -365 <= n <= 3652059).
  { unfold is_year in Ys. assert (M1 := dby_mono 0 (time_year t) ltac:(lia)). assert (M2 := dby_mono (time_year t + 1) 10000 ltac:(lia)).
    change (days_before_year 0) with (-366) in M1. change (days_before_year 10000) with 3652059 in M2. lia. }
  set (s := L mod 86400). assert (Hs : 0 <= s < 86400) by (unfold s; lia).
  assert (Hsec : L + epoch = n * 86400 + s) by (unfold n, s, epoch; lia).
  assert (Hw1 : wrap_i 64 L = L) by (unfold wrap_i; unfold epoch in Hsec; rewrite Z.mod_small; lia).
  assert (Hw2 : wrap_i 64 (L + epoch) = n * 86400 + s) by (unfold wrap_i; rewrite Hsec; rewrite Z.mod_small; lia).
  unfold appendRFC3339Time. fold L. rewrite Hw1, Hw2.
  assert (Hr : rdnToYmd (u32 (Z.quot (n * 86400 + s) 86400)) <> None).
  { destruct (Z_le_gt_dec 1 n) as [G|G].
    - replace (Z.quot (n * 86400 + s) 86400) with n by (rewrite Z.quot_div_nonneg by lia; lia). rewrite u32_id by lia.
      destruct (rdnToYmd_correct n) as (y & mo & d & -> & _); [lia | discriminate].
    - apply rdn_small. assert (Q := Z.quot_rem' (n * 86400 + s) 86400). destruct (Z_le_gt_dec 0 (n * 86400 + s)) as [P|P].
      + rewrite Z.quot_div_nonneg by lia. lia.
      + assert (B := Z.rem_bound_abs (n * 86400 + s) 86400 ltac:(lia)). lia. }
  destruct (rfc_head_len _ Hr) as (b & -> & Lb). destruct (frac_len nano (t_nsec t) b Lb) as (b1 & n1 & -> & L1 & B1).
  destruct (zone_len (t_offset t) b1 n1 L1 B1) as (b2 & n2 & -> & L2 & B2). rewrite bset_ok by lia. eexists. split; [reflexivity|].
  rewrite firstn_length, set_nth_length. lia.
Qed.
