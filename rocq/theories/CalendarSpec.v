(** Specification of the proleptic Gregorian calendar.

    Written from the calendar rules (leap years, month lengths), with no
    reference to the code. *)
From Verif Require Import Base.

Definition leap (y : Z) : bool := (y mod 4 =? 0) && (negb (y mod 100 =? 0) || (y mod 400 =? 0)).

Definition year_len (y : Z) : Z := if leap y then 366 else 365.

Definition month_len (y m : Z) : Z :=
  if m =? 2 then (if leap y then 29 else 28)
  else if (m =? 4) || (m =? 6) || (m =? 9) || (m =? 11) then 30 else 31.

(** Days of year y before the first day of month m. *)
Definition days_before_month (y m : Z) : Z :=
  fold_left (fun acc k => acc + month_len y k) (map Z.of_nat (seq 1 (Z.to_nat (m - 1)))) 0.

(** Days between 0001-01-01 and the first day of year y (negative before year
    one); [dby_step] below states that it grows by the length of each year. *)
Definition days_before_year (y : Z) : Z :=
  365 * (y - 1) + (y - 1) / 4 - (y - 1) / 100 + (y - 1) / 400.

Lemma dby_first : days_before_year 1 = 0.
Proof. reflexivity. Qed.

Lemma dby_step y : days_before_year (y + 1) = days_before_year y + year_len y.
Proof.
  unfold days_before_year, year_len, leap. replace (y + 1 - 1) with y by lia.
  destruct (y mod 4 =? 0) eqn:E4, (y mod 100 =? 0) eqn:E100, (y mod 400 =? 0) eqn:E400; cbn [andb orb negb]; lia.
Qed.

(** Rata Die: 0001-01-01 is day 1. *)
Definition rata_die (y m d : Z) : Z := days_before_year y + days_before_month y m + d.

(** y-m-d is a calendar date, and it is day number n. *)
Definition is_date (n y m d : Z) : Prop :=
  1 <= m <= 12 /\ 1 <= d <= month_len y m /\ n = rata_die y m d.

(** y is the year containing day n. *)
Definition is_year (n y : Z) : Prop := days_before_year y < n <= days_before_year (y + 1).

(** The civil date and time of day of a count of seconds since
    1970-01-01T00:00:00 (leap seconds do not exist in Go's time). *)
Definition civil (secs y m d hh mm ss : Z) : Prop :=
  exists n, is_date n y m d /\ 0 <= hh < 24 /\ 0 <= mm < 60 /\ 0 <= ss < 60 /\
    secs = (n - rata_die 1970 1 1) * 86400 + hh * 3600 + mm * 60 + ss.

Lemma dbm_table y m : 1 <= m <= 13 ->
  days_before_month y m =
    nth (Z.to_nat m) [0; 0; 31; 59; 90; 120; 151; 181; 212; 243; 273; 304; 334; 365] 0 + (if (leap y && (2 <? m))%bool then 1 else 0).
Proof.
  intros H. assert (C : m = 1 \/ m = 2 \/ m = 3 \/ m = 4 \/ m = 5 \/ m = 6 \/ m = 7 \/ m = 8 \/ m = 9 \/ m = 10 \/ m = 11 \/ m = 12 \/ m = 13) by lia.
  unfold days_before_month.
  repeat (destruct C as [->|C]); [.. | rewrite C]; cbn [Z.sub Z.opp Z.add Z.to_nat Pos.to_nat Pos.iter_op seq map fold_left nth Nat.add];
    cbv -[leap]; destruct (leap y); reflexivity.
Qed.

Lemma dbm_year y : days_before_month y 13 = year_len y.
Proof. rewrite dbm_table by lia. unfold year_len. cbv -[leap]. destruct (leap y); reflexivity. Qed.

Lemma dbm_next y m : 1 <= m <= 12 -> days_before_month y (m + 1) = days_before_month y m + month_len y m.
Proof.
  intros H. unfold days_before_month. replace (Z.to_nat (m + 1 - 1)) with (S (Z.to_nat (m - 1))) by lia.
  rewrite seq_S, map_app, fold_left_app. cbn [map fold_left]. do 2 f_equal. lia.
Qed.

Lemma month_len_pos y m : 28 <= month_len y m <= 31.
Proof. unfold month_len. destruct (m =? 2), (leap y), ((m =? 4) || (m =? 6) || (m =? 9) || (m =? 11)); lia. Qed.

Lemma dbm_bounds y m d : 1 <= m <= 12 -> 1 <= d <= month_len y m -> 0 < days_before_month y m + d <= year_len y.
Proof.
  intros Hm Hd. rewrite <- dbm_year.
  assert (H0 : 0 <= days_before_month y m).
  { rewrite dbm_table by lia.
    assert (0 <= nth (Z.to_nat m) [0; 0; 31; 59; 90; 120; 151; 181; 212; 243; 273; 304; 334; 365] 0).
    { generalize (Z.to_nat m). intros k. do 14 (destruct k as [|k]; [cbn; lia|]). destruct k; cbn; lia. }
    destruct (leap y && (2 <? m)); lia. }
  split; [lia|].
  assert (Mono : forall k : nat, m + Z.of_nat k <= 12 -> days_before_month y m + month_len y m <= days_before_month y (m + Z.of_nat k + 1)).
  { induction k as [|k IH]; intros Hk.
    - replace (m + Z.of_nat 0 + 1) with (m + 1) by lia. rewrite dbm_next by lia. lia.
    - rewrite dbm_next by lia. assert (M := month_len_pos y (m + Z.of_nat (S k))).
      replace (m + Z.of_nat (S k)) with (m + Z.of_nat k + 1) in * by lia. specialize (IH ltac:(lia)). lia. }
  specialize (Mono (Z.to_nat (12 - m)) ltac:(lia)). replace (m + Z.of_nat (Z.to_nat (12 - m)) + 1) with 13 in Mono by lia. lia.
Qed.

Lemma is_date_year n y m d : is_date n y m d -> is_year n y.
Proof.
  intros (Hm & Hd & ->). unfold is_year, rata_die. rewrite dby_step. assert (B := dbm_bounds y m d Hm Hd). lia.
Qed.

Lemma dby_mono y1 y2 : y1 <= y2 -> days_before_year y1 <= days_before_year y2.
Proof. unfold days_before_year. lia. Qed.

Lemma is_year_unique n y1 y2 : is_year n y1 -> is_year n y2 -> y1 = y2.
Proof.
  unfold is_year. intros H1 H2. destruct (Z.lt_trichotomy y1 y2) as [H|[H|H]]; [|assumption|].
  - assert (M := dby_mono (y1 + 1) y2 ltac:(lia)). lia.
  - assert (M := dby_mono (y2 + 1) y1 ltac:(lia)). lia.
Qed.
