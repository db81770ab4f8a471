(** Times: calendar conversion, RFC 3339 text. *)
From Verif Require Import Base JsonSpec IntModel IntProof BufModel TypesModel OptionsModel CalendarSpec TimeModel.

(** ** time.Time.Year *)
Lemma year_of_day_correct n : is_year n (year_of_day n).
Proof.
  unfold is_year, year_of_day, days_before_year.
  set (z := n + 305). assert (Hz : n = z - 305) by lia. clearbody z. subst n.
  assert (D := Z.div_mod z 146097 ltac:(lia)). assert (M := Z.mod_pos_bound z 146097 ltac:(lia)).
  set (era := z / 146097) in *. set (doe := z mod 146097) in *. clearbody era doe. subst z.
  set (yoe := (doe - doe / 1460 + doe / 36524 - doe / 146096) / 365).
  assert (Y : 0 <= yoe <= 399 /\ 365 * yoe + yoe / 4 - yoe / 100 <= doe /\
              (yoe < 399 -> doe < 365 * (yoe + 1) + (yoe + 1) / 4 - (yoe + 1) / 100)) by (unfold yoe; lia).
  clearbody yoe. destruct Y as (Y1 & Y2 & Y3).
  set (doy := doe - (365 * yoe + yoe / 4 - yoe / 100)). 
  destruct (306 <=? doy) eqn:E; unfold doy in *; lia.
Qed.

Lemma time_year_correct t : is_year ((t_unix t + t_offset t) / 86400 + 719163) (time_year t).
Proof. apply year_of_day_correct. Qed.

(** ** rdnToYmd *)
Lemma u32_id n : 0 <= n < 2 ^ 32 -> u32 n = n.
Proof. intros. apply Z.mod_small. assumption. Qed.
Lemma u16_id n : 0 <= n < 2 ^ 16 -> u16 n = n.
Proof. intros. apply Z.mod_small. assumption. Qed.

(** Day d (1..366) of the year starting on the first of March: month (3..14)
    and day of the month. *)
Definition month_row (d : Z) : bool :=
  let m := (535 * d + 48950) / 16384 in
  let m' := if 12 <? m then m - 12 else m in
  let dd := d - nth (Z.to_nat m') dayOffset 0 in
  (3 <=? m) && (m <=? 14) && (1 <=? dd) &&
  (dd <=? (if m' =? 2 then 29 else month_len 1 m')) &&
  (nth (Z.to_nat m') dayOffset 0 =? (if 12 <? m then 306 + (if m' =? 2 then 31 else 0)
     else nth (Z.to_nat m') [0; 0; 31; 59; 90; 120; 151; 181; 212; 243; 273; 304; 334; 365] 0 - 59)) &&
  ((m' =? 2) || (m <=? 12) || (m' =? 1)) && ((negb (m' =? 2)) || (d <=? 365) || (dd =? 29)).

Lemma month_row_all : forallb month_row (map Z.of_nat (seq 1 366)) = true.
Proof. vm_compute. reflexivity. Qed.

Lemma month_row_ok d : 1 <= d <= 366 -> month_row d = true.
Proof.
  intros H. assert (F := month_row_all). rewrite forallb_forall in F. apply F.
  apply in_map_iff. exists (Z.to_nat d). split; [lia|]. apply in_seq. lia.
Qed.

Lemma rdnToYmd_correct n : 1 <= n <= 3652059 ->
  exists y m d, rdnToYmd n = Some (y, m, d) /\ is_date n y m d /\ 1 <= y <= 9999.
Proof.
  intros Hn. unfold rdnToYmd.
  rewrite (u32_id (n + 306)) by lia. set (Zd := n + 306).
  rewrite (u32_id (100 * Zd)) by (unfold Zd; lia). rewrite (u32_id (100 * Zd - 25)) by (unfold Zd; lia).
  set (A := (100 * Zd - 25) / 3652425).
  assert (HA : 0 <= A <= 99 /\ 3652425 * A <= 100 * Zd - 25 < 3652425 * (A + 1)) by (unfold A, Zd; lia).
  clearbody A. rewrite (u32_id (A - A / 4)) by lia. set (B := A - A / 4).
  assert (HB : B = A - A / 4) by reflexivity. clearbody B.
  rewrite (u32_id (100 * B)) by lia. rewrite (u32_id (100 * B + (100 * Zd - 25))) by (unfold Zd; lia).
  set (y := (100 * B + (100 * Zd - 25)) / 36525).
  assert (Hy : 36525 * y <= 100 * (B + Zd) - 25 < 36525 * (y + 1)) by (unfold y; lia).
  clearbody y.
  assert (Hyr : 0 <= y <= 9999) by (unfold Zd in *; lia).
  rewrite (u32_id (B + Zd)) by (unfold Zd; lia). rewrite (u32_id (1461 * y)) by lia.
  assert (E4 : 1461 * y / 4 = 365 * y + y / 4) by lia. rewrite E4.
  assert (Hd : 1 <= B + Zd - (365 * y + y / 4) <= 366) by lia.
  rewrite (u32_id (B + Zd - (365 * y + y / 4))) by lia.
  set (d := B + Zd - (365 * y + y / 4)) in *.
  assert (HZ : n = 365 * y + y / 4 - B + d - 306) by (unfold d, Zd; lia).
  assert (Hc : y / 100 = A) by (unfold d, Zd in *; lia).
  assert (H400 : y / 400 = A / 4) by lia.
  assert (Hlast : d = 366 -> (y + 1) mod 4 = 0 /\ ((y + 1) mod 100 <> 0 \/ (y + 1) mod 400 = 0)) by (unfold d, Zd in *; lia).
  clearbody d. clear HA Hy E4 Zd.
  assert (R := month_row_ok d Hd). unfold month_row in R.
  rewrite (u32_id (535 * d)) by lia. rewrite (u32_id (535 * d + 48950)) by lia.
  set (mm := (535 * d + 48950) / 16384) in *. assert (Hmm : 3 <= mm <= 14) by lia.
  assert (Hsplit : 12 < mm <-> 306 < d) by (unfold mm; lia). clearbody mm.
  rewrite (u16_id d) by lia.
  rewrite !Bool.andb_true_iff in R. destruct R as [[[[[[R1 R2] R3] R4] R5] R6] R7].
  destruct (12 <? mm) eqn:Em.
  - rewrite (u32_id (y + 1)) by lia. rewrite (u32_id (mm - 12)) by lia.
    replace (mm - 12 <=? 12) with true by lia. rewrite (u16_id (y + 1)), (u16_id (mm - 12)) by lia.
    set (off := nth (Z.to_nat (mm - 12)) dayOffset 0) in *.
    assert (Hdd : 1 <= d - off <= 31).
    { split; [lia|]. assert (M := month_len_pos 1 (mm - 12)). destruct (mm - 12 =? 2); lia. }
    rewrite (u16_id (d - off)) by lia.
    exists (y + 1), (mm - 12), (d - off). split; [reflexivity|]. split; [split; [lia|]|].
    + assert (L : leap (y + 1) = true \/ leap (y + 1) = false) by (destruct (leap (y + 1)); auto).
      assert (Cm : mm = 13 \/ mm = 14) by lia. clearbody off. unfold rata_die, days_before_year.
      rewrite dbm_table by lia.
      destruct Cm as [-> | ->]; cbn [Z.sub Z.eqb Z.opp Z.add] in *.
      * change (13 - 12) with 1 in *. change (1 =? 2) with false in *. change (2 <? 1) with false. rewrite Bool.andb_false_r.
        change (nth (Z.to_nat 1) [0; 0; 31; 59; 90; 120; 151; 181; 212; 243; 273; 304; 334; 365] 0) with 0.
        unfold month_len in *. change (1 =? 2) with false in *. cbn [Z.eqb Pos.eqb orb] in *. lia.
      * change (14 - 12) with 2 in *. change (2 =? 2) with true in *. change (2 <? 2) with false. rewrite Bool.andb_false_r.
        change (nth (Z.to_nat 2) [0; 0; 31; 59; 90; 120; 151; 181; 212; 243; 273; 304; 334; 365] 0) with 31.
        unfold month_len in *. change (2 =? 2) with true in *. unfold leap in *.
        destruct ((y + 1) mod 4 =? 0) eqn:?, ((y + 1) mod 100 =? 0) eqn:?, ((y + 1) mod 400 =? 0) eqn:?; cbn [andb orb negb] in *; lia.
    + lia.
  - replace (mm <=? 12) with true by lia. rewrite (u16_id y), (u16_id mm) by lia.
    set (off := nth (Z.to_nat mm) dayOffset 0) in *.
    assert (Hdd : 1 <= d - off <= 31).
    { split; [lia|]. assert (M := month_len_pos 1 mm). destruct (mm =? 2); lia. }
    rewrite (u16_id (d - off)) by lia.
    exists y, mm, (d - off). split; [reflexivity|]. split; [split; [lia|]|].
    + replace (mm =? 2) with false in * by lia.
      assert (Em1 : month_len y mm = month_len 1 mm) by (unfold month_len; replace (mm =? 2) with false by lia; reflexivity).
      rewrite Em1. unfold rata_die, days_before_year. rewrite dbm_table by lia. replace (2 <? mm) with true by lia.
      rewrite Bool.andb_true_r.
      set (tb := nth (Z.to_nat mm) _ 0) in *. clearbody tb off. unfold leap.
      destruct (y mod 4 =? 0) eqn:?, (y mod 100 =? 0) eqn:?, (y mod 400 =? 0) eqn:?; cbn [andb orb negb] in *; lia.
    + clear - HZ Hn Hyr Hd HB Hc H400 Hsplit Em. lia.
Qed.

(** ** Specification of the RFC 3339 text *)

(** k digits denoting n *)
Definition dnum (k : nat) (n : Z) (s : bytes) : Prop := length s = k /\ Forall digit s /\ dval s = n.

(** time-secfrac, in nanoseconds; no trailing zero, absent for zero *)
Inductive secfrac : bytes -> Z -> Prop :=
| sf_none : secfrac [] 0
| sf_some fs c : Forall digit (fs ++ [c]) -> c <> 48 -> (length (fs ++ [c]) <= 9)%nat ->
    secfrac (46 :: fs ++ [c]) (dval (fs ++ [c]) * 10 ^ Z.of_nat (9 - length (fs ++ [c]))).

(** time-offset, in seconds *)
Inductive zoneoff : bytes -> Z -> Prop :=
| zo_utc : zoneoff [90] 0
| zo_pos h m sh sm : dnum 2 h sh -> dnum 2 m sm -> m < 60 -> zoneoff (43 :: sh ++ 58 :: sm) (h * 3600 + m * 60)
| zo_neg h m sh sm : dnum 2 h sh -> dnum 2 m sm -> m < 60 -> zoneoff (45 :: sh ++ 58 :: sm) (- (h * 3600 + m * 60)).

(** full-date "T" full-time *)
Definition date_time (s : bytes) (y mo d hh mi ss ns off : Z) : Prop :=
  exists sy smo sd sh smi ss' sf sz,
    dnum 4 y sy /\ dnum 2 mo smo /\ dnum 2 d sd /\ dnum 2 hh sh /\ dnum 2 mi smi /\ dnum 2 ss ss' /\
    secfrac sf ns /\ zoneoff sz off /\
    s = sy ++ 45 :: smo ++ 45 :: sd ++ 84 :: sh ++ 58 :: smi ++ 58 :: ss' ++ sf ++ sz.

(** ** Digits *)
Lemma dig_small x : 0 <= x <= 9 -> dig x = 48 + x.
Proof. intros H. unfold dig, u8, wrap_u. rewrite !Z.mod_small; try lia. Qed.

Lemma dig10 x : 0 <= x -> dig (Z.rem x 10) = 48 + x mod 10.
Proof. intros H. rewrite Z.rem_mod_nonneg by lia. apply dig_small. lia. Qed.
Lemma dig6 x : 0 <= x -> dig (Z.rem x 6) = 48 + x mod 6.
Proof. intros H. rewrite Z.rem_mod_nonneg by lia. apply dig_small. lia. Qed.

Lemma dnum2 a b n : 0 <= a <= 9 -> 0 <= b <= 9 -> n = 10 * a + b -> dnum 2 n [48 + a; 48 + b].
Proof.
  intros Ha Hb ->. split; [reflexivity|]. split; [repeat constructor; unfold digit; lia|]. unfold dval. cbn [fold_left]. lia.
Qed.

(** The zone part of the code, written at index n. *)
Definition zone_text (offset : Z) : bytes :=
  if offset =? 0 then [90]
  else let z := Z.abs (Z.quot offset 60) in
    (if Z.quot offset 60 <? 0 then 45 else 43) ::
      [48 + z / 60 / 10 mod 10; 48 + (z / 60) mod 10] ++ 58 :: [48 + (z / 10) mod 6; 48 + z mod 10].

Lemma zone_text_ok offset : Z.abs offset < 360000 -> zoneoff (zone_text offset) (60 * Z.quot offset 60).
Proof.
  intros H. unfold zone_text. destruct (offset =? 0) eqn:E.
  - assert (offset = 0) as -> by lia. constructor.
  - assert (Q : Z.quot offset 60 = if offset <? 0 then - (- offset / 60) else offset / 60).
    { destruct (offset <? 0) eqn:En.
      - rewrite <- (Z.opp_involutive offset) at 1. rewrite Z.quot_opp_l, Z.quot_div_nonneg by lia. reflexivity.
      - rewrite Z.quot_div_nonneg by lia. reflexivity. }
    set (q := Z.quot offset 60) in *. assert (Hq : Z.abs q < 6000) by (destruct (offset <? 0); lia). clearbody q.
    destruct (q <? 0) eqn:Eq.
    + replace (60 * q) with (- (Z.abs q / 60 * 3600 + Z.abs q mod 60 * 60)) by lia.
      apply zo_neg; [apply dnum2; lia | apply dnum2; lia | lia].
    + replace (60 * q) with (Z.abs q / 60 * 3600 + Z.abs q mod 60 * 60) by lia.
      apply zo_pos; [apply dnum2; lia | apply dnum2; lia | lia].
Qed.

Lemma set_nth_pre pre post i v : set_nth (pre ++ post) (length pre + i) v = pre ++ set_nth post i v.
Proof. induction pre as [|x pre IH]; cbn [app length Nat.add set_nth]; [reflexivity | f_equal; exact IH]. Qed.

Lemma bset_pre pre post i v : (i < length post)%nat ->
  bset (pre ++ post) (length pre + i) v = Some (pre ++ set_nth post i v).
Proof. intros H. rewrite bset_ok by (rewrite app_length; lia). rewrite set_nth_pre. reflexivity. Qed.

Lemma bset_at pre v0 post v : bset (pre ++ v0 :: post) (length pre) v = Some (pre ++ v :: post).
Proof. replace (length pre) with (length pre + 0)%nat by lia. rewrite bset_pre by (cbn [length]; lia). reflexivity. Qed.

Lemma zone_step_any dst offset pre post : (7 <= length post)%nat ->
  (do (buf, n) <- zone_step offset (pre ++ post) (length pre);
   do buf <- bset buf n 34; Some (dst ++ firstn (n + 1) buf)) = Some (dst ++ pre ++ zone_text offset ++ [34]).
Proof.
  intros Hp. do 7 (destruct post as [|?p post]; [cbn in Hp; lia|]). clear Hp.
  unfold zone_step, zone_text. destruct (offset =? 0) eqn:E.
  - rewrite bset_at.
    rewrite bset_pre by (cbn [length]; lia). cbn [set_nth].
    replace (length pre + 1 + 1)%nat with (length pre + 2)%nat by lia.
    rewrite firstn_app_2. reflexivity.
  - set (q := Z.quot offset 60).
    replace (if q <? 0 then - q else q) with (Z.abs q) by (destruct (q <? 0) eqn:?; lia).
    set (z := Z.abs q). assert (Hz : 0 <= z) by (unfold z; lia). clearbody z.
    rewrite bset_at.
    do 5 (rewrite bset_pre by (cbn [length]; lia); cbn [set_nth]).
    rewrite bset_pre by (cbn [length]; lia); cbn [set_nth].
    replace (length pre + 6 + 1)%nat with (length pre + 7)%nat by lia.
    rewrite firstn_app_2. cbn [firstn].
    rewrite (dig10 z) by lia. rewrite (Z.quot_div_nonneg z 10) by lia. rewrite (dig6 (z / 10)) by lia.
    rewrite (Z.quot_div_nonneg (z / 10) 6) by lia. rewrite (dig10 (z / 10 / 6)) by lia.
    rewrite (Z.quot_div_nonneg (z / 10 / 6) 10) by lia. rewrite dig10 by lia.
    rewrite (Z.div_div z 10 6) by lia. change (10 * 6) with 60.
    do 2 f_equal. 
Qed.

Lemma zone_step_ok dst offset pre post : (7 <= length post)%nat -> Z.abs offset < 360000 ->
  (do (buf, n) <- zone_step offset (pre ++ post) (length pre);
   do buf <- bset buf n 34; Some (dst ++ firstn (n + 1) buf)) = Some (dst ++ pre ++ zone_text offset ++ [34]).
Proof. intros Hp _. apply zone_step_any. exact Hp. Qed.

(** The fraction part. *)
Fixpoint dlist (k : nat) (n : Z) : bytes :=
  match k with O => [] | S k' => dlist k' (n / 10) ++ [48 + n mod 10] end.

Lemma dlist_length k : forall n, length (dlist k n) = k.
Proof. induction k as [|k IH]; intros n; cbn [dlist]; [reflexivity|]. rewrite app_length, IH. cbn. lia. Qed.

Lemma dlist_digits k : forall n, 0 <= n -> Forall digit (dlist k n).
Proof.
  induction k as [|k IH]; intros n Hn; cbn [dlist]; [constructor|]. apply Forall_app. split; [apply IH; lia|].
  constructor; [unfold digit; lia | constructor].
Qed.

Lemma dlist_val k : forall n, 0 <= n < 10 ^ Z.of_nat k -> dval (dlist k n) = n.
Proof.
  induction k as [|k IH]; intros n Hn.
  - change (10 ^ Z.of_nat 0) with 1 in Hn. cbn. unfold dval; cbn. lia.
  - rewrite Nat2Z.inj_succ, Z.pow_succ_r in Hn by lia. cbn [dlist]. rewrite dval_app, IH by lia.
    cbn [length]. change (10 ^ Z.of_nat 1) with 10. unfold dval. cbn [fold_left]. lia.
Qed.

Lemma set_nth_mid pre v0 mid w post :
  set_nth (pre ++ v0 :: mid ++ post) (length pre) w = pre ++ w :: mid ++ post.
Proof. induction pre as [|x pre IH]; cbn [app length set_nth]; [reflexivity | f_equal; exact IH]. Qed.

Lemma put_digits_ok k : forall pre mid post y, length mid = k -> 0 <= y ->
  forall base, length pre = S base ->
  put_digits k (pre ++ mid ++ post) base y = Some (pre ++ dlist k y ++ post).
Proof.
  induction k as [|k IH]; intros pre mid post y Hm Hy base Hb.
  - destruct mid; [|discriminate]. reflexivity.
  - destruct (exists_last (l := mid)) as (mid' & c & ->); [intros ->; discriminate|].
    rewrite app_length in Hm. cbn [length] in Hm.
    cbn [put_digits dlist]. rewrite <- !app_assoc. cbn [app].
    replace (base + S k)%nat with (length (pre ++ mid') + 0)%nat by (rewrite app_length; lia).
    rewrite (app_assoc pre mid'). rewrite bset_pre by (cbn [length]; lia). cbn [set_nth]. rewrite <- app_assoc.
    rewrite dig10 by lia. rewrite Z.quot_div_nonneg by lia. rewrite (IH pre mid' (48 + y mod 10 :: post)) by lia.
    rewrite <- ?app_assoc. reflexivity.
Qed.

Lemma rpad_ok k : forall pre ds post base, length pre = S base -> length ds = k ->
  exists fs, ds = fs ++ repeat 48 (rpad k (pre ++ ds ++ post) base) /\ (forall g c, fs = g ++ [c] -> c <> 48).
Proof.
  induction k as [|k IH]; intros pre ds post base Hb Hd.
  - destruct ds; [|discriminate]. exists []. split; [reflexivity|]. intros [|]; discriminate.
  - destruct (exists_last (l := ds)) as (ds' & c & ->); [intros ->; discriminate|].
    rewrite app_length in Hd. cbn [length] in Hd. cbn [rpad].
    assert (En : nth (base + S k) (pre ++ (ds' ++ [c]) ++ post) 0 = c).
    { rewrite app_nth2 by lia. rewrite <- app_assoc. rewrite app_nth2 by lia. 
      replace (base + S k - length pre - length ds')%nat with 0%nat by lia. reflexivity. }
    rewrite En. destruct (c =? 48) eqn:Ec.
    + assert (c = 48) as -> by lia. rewrite <- app_assoc. destruct (IH pre ds' ([48] ++ post) base Hb ltac:(lia)) as (fs & Hfs & Hl).
      exists fs. split; [|exact Hl].
      rewrite Hfs at 1. rewrite <- app_assoc. f_equal. 
      change (repeat 48 (S (rpad k (pre ++ ds' ++ [48] ++ post) base))) with (48 :: repeat 48 (rpad k (pre ++ ds' ++ [48] ++ post) base)).
      rewrite <- repeat_cons. reflexivity.
    + exists (ds' ++ [c]). cbn [repeat]. rewrite app_nil_r. split; [reflexivity|].
      intros g c' E. apply app_inj_tail in E as [_ <-]. lia.
Qed.

Lemma dval_zeros fs k : dval (fs ++ repeat 48 k) = dval fs * 10 ^ Z.of_nat k.
Proof.
  rewrite dval_app, repeat_length. assert (Z0 : dval (repeat 48 k) = 0).
  { induction k as [|k IH]; [reflexivity|]. cbn [repeat]. rewrite dval_cons, IH. lia. }
  lia.
Qed.

Lemma frac_step_ok nano nsec pre post : 0 <= nsec < 1000000000 -> length post = 17%nat ->
  exists sf post', frac_step nano nsec (pre ++ post) (length pre) = Some ((pre ++ sf) ++ post', length (pre ++ sf)) /\
    (7 <= length post')%nat /\ secfrac sf (if nano then nsec else 0).
Proof.
  intros Hn Hp. unfold frac_step. destruct (nano && negb (nsec =? 0)) eqn:E.
  - apply Bool.andb_true_iff in E as [-> E].
    destruct post as [|p0 post]; [discriminate|].
    rewrite bset_at.
    assert (Ep : exists mid tl, post = mid ++ tl /\ length mid = 9%nat /\ length tl = 7%nat).
    { exists (firstn 9 post), (skipn 9 post). rewrite firstn_skipn, firstn_length, skipn_length. cbn in Hp. repeat split; lia. }
    destruct Ep as (mid & tl & -> & Hmid & Htl).
    change (pre ++ 46 :: mid ++ tl) with (pre ++ [46] ++ mid ++ tl). rewrite (app_assoc pre).
    rewrite (put_digits_ok 9 (pre ++ [46]) mid tl nsec Hmid ltac:(lia) (length pre)) by (rewrite app_length; cbn; lia).
    destruct (rpad_ok 9 (pre ++ [46]) (dlist 9 nsec) tl (length pre)) as (fs & Hfs & Hl); [rewrite app_length; cbn; lia | apply dlist_length |].
    set (r := rpad 9 ((pre ++ [46]) ++ dlist 9 nsec ++ tl) (length pre)) in *. clearbody r.
    assert (Hlen := dlist_length 9 nsec). rewrite Hfs, app_length, repeat_length in Hlen.
    assert (Hv := dlist_val 9 nsec ltac:(change (10 ^ Z.of_nat 9) with 1000000000; lia)). rewrite Hfs, dval_zeros in Hv.
    assert (Hd := dlist_digits 9 nsec ltac:(lia)). rewrite Hfs in Hd. apply Forall_app in Hd as [Hd _].
    exists (46 :: fs), (repeat 48 r ++ tl). split; [|split].
    + rewrite Hfs. f_equal. f_equal; [rewrite <- !app_assoc; reflexivity|]. rewrite app_length. cbn [length]. lia.
    + rewrite app_length. lia.
    + destruct (exists_last (l := fs)) as (g & c & ->).
      { intros ->. unfold dval in Hv. cbn in Hv. lia. }
      replace nsec with (dval (g ++ [c]) * 10 ^ Z.of_nat (9 - length (g ++ [c]))).
      * constructor; [assumption | eapply Hl; reflexivity | lia].
      * rewrite <- Hv at 1. do 3 f_equal. lia.
  - exists [], post. rewrite app_nil_r. split; [reflexivity|]. split; [lia|].
    destruct nano; [|constructor]. cbn [andb] in E. replace nsec with 0 by lia. constructor.
Qed.

(** ** appendRFC3339Time *)
Lemma rfc3339_date_zone t dst nano n s y m d : gtime_ok t -> Z.abs (t_offset t) < 360000 ->
  t_unix t + t_offset t = (n - 719163) * 86400 + s -> - 366 <= n <= 3652059 -> 0 <= s < 86400 -> 0 <= n \/ s = 0 ->
  rdnToYmd (u32 n) = Some (y, m, d) -> is_date n y m d -> 0 <= y <= 9999 ->
  exists out, appendRFC3339Time t dst nano = Some (dst ++ 34 :: out ++ [34]) /\
    date_time out y m d (s / 3600) (s / 60 mod 60) (s mod 60) (if nano then t_nsec t else 0) (60 * Z.quot (t_offset t) 60) /\
    civil (t_unix t + t_offset t) y m d (s / 3600) (s / 60 mod 60) (s mod 60) /\
    exists p, out = p ++ zone_text (t_offset t).
Proof.
  intros (Hu & Hns & Hoff) Hz HL Hn Hs Hns0 Ermd Hdate Hyr. remember (t_unix t + t_offset t) as L eqn:EL. clear Hu.
  assert (Hm : 1 <= m <= 12) by apply Hdate.
  assert (Hdd : 1 <= d <= 31) by (destruct Hdate as (_ & Hd & _); assert (M := month_len_pos y m); lia).
  assert (Hsec : L + epoch = n * 86400 + s) by (unfold epoch; lia).
  assert (Hw1 : wrap_i 64 L = L).
  { unfold wrap_i. unfold epoch in Hsec. rewrite Z.mod_small; lia. }
  assert (Hw2 : wrap_i 64 (L + epoch) = n * 86400 + s).
  { unfold wrap_i. rewrite Hsec. rewrite Z.mod_small; lia. }
  assert (Hq : Z.quot (n * 86400 + s) 86400 = n).
  { destruct Hns0 as [G | ->]; [rewrite Z.quot_div_nonneg by lia; lia | rewrite Z.add_0_r; apply Z.quot_mul; lia]. }
  assert (Hr : Z.rem (n * 86400 + s) 86400 = s) by (assert (Q := Z.quot_rem' (n * 86400 + s) 86400); lia).
  set (pre := 34 :: dlist 4 y ++ 45 :: dlist 2 m ++ 45 :: dlist 2 d ++ 84 :: dlist 2 (s / 3600) ++ 58 :: dlist 2 (s / 60 mod 60) ++ 58 :: dlist 2 (s mod 60)).
  destruct (frac_step_ok nano (t_nsec t) pre (repeat 0 17) Hns eq_refl) as (sf & post' & Efr & Hpost & Hsf).
  assert (Hpre : length pre = 20%nat) by reflexivity.
  exists (tl pre ++ sf ++ zone_text (t_offset t)).
  split; [|split; [|split]].
  - assert (Head : rfc_head (n * 86400 + s) = Some (pre ++ repeat 0 17)).
    { unfold rfc_head. rewrite Hq, Hr. rewrite Ermd.
      cbv [bset length Nat.ltb Nat.leb set_nth repeat put_digits Nat.add].
      rewrite !(Z.quot_div_nonneg y 10), !(Z.quot_div_nonneg (y / 10) 10), !(Z.quot_div_nonneg (y / 10 / 10) 10) by lia.
      rewrite (Z.quot_div_nonneg m 10), (Z.quot_div_nonneg d 10) by lia.
      rewrite !(Z.quot_div_nonneg s 10), !(Z.quot_div_nonneg (s / 10) 6) by lia.
      rewrite !(Z.quot_div_nonneg (s / 10 / 6) 10) by lia. rewrite !(Z.quot_div_nonneg (s / 10 / 6 / 10) 6) by lia.
      rewrite !(Z.quot_div_nonneg (s / 10 / 6 / 10 / 6) 10) by lia.
      rewrite !dig10, !dig6 by lia. unfold pre. cbn [dlist app].
      repeat (f_equal; try lia). }
    unfold appendRFC3339Time. rewrite <- EL, Hw1, Hw2.
    rewrite Head, <- Hpre, Efr. rewrite zone_step_ok by assumption.
    rewrite <- !app_assoc. unfold pre. reflexivity.
  - unfold pre. cbn [tl]. exists (dlist 4 y), (dlist 2 m), (dlist 2 d), (dlist 2 (s / 3600)), (dlist 2 (s / 60 mod 60)), (dlist 2 (s mod 60)), sf, (zone_text (t_offset t)).
    assert (DN : forall k x, 0 <= x < 10 ^ Z.of_nat k -> dnum k x (dlist k x)).
    { intros k x Hx. split; [apply dlist_length|]. split; [apply dlist_digits; lia | apply dlist_val; assumption]. }
    do 6 (split; [apply DN; change (10 ^ Z.of_nat 4) with 10000; change (10 ^ Z.of_nat 2) with 100; lia|]).
    split; [assumption|]. split; [apply zone_text_ok; assumption|].
    rewrite <- !app_assoc. cbn [app]. rewrite <- !app_assoc. cbn [app]. rewrite <- !app_assoc. cbn [app]. rewrite <- !app_assoc. cbn [app]. rewrite <- !app_assoc. reflexivity.
  - exists n. split; [assumption|]. split; [lia|]. split; [lia|]. split; [lia|].
    change (rata_die 1970 1 1) with 719163. lia.
  - eexists. rewrite app_assoc. reflexivity.
Qed.
Lemma rfc3339_date t dst nano n s y m d : gtime_ok t -> Z.abs (t_offset t) < 360000 ->
  t_unix t + t_offset t = (n - 719163) * 86400 + s -> - 366 <= n <= 3652059 -> 0 <= s < 86400 -> 0 <= n \/ s = 0 ->
  rdnToYmd (u32 n) = Some (y, m, d) -> is_date n y m d -> 0 <= y <= 9999 ->
  exists out, appendRFC3339Time t dst nano = Some (dst ++ 34 :: out ++ [34]) /\
    date_time out y m d (s / 3600) (s / 60 mod 60) (s mod 60) (if nano then t_nsec t else 0) (60 * Z.quot (t_offset t) 60) /\
    civil (t_unix t + t_offset t) y m d (s / 3600) (s / 60 mod 60) (s mod 60).
Proof.
  intros A B C D F G I J K. destruct (rfc3339_date_zone t dst nano n s y m d A B C D F G I J K) as (out & X & Y & Z & _). exists out. auto.
Qed.

Lemma rfc3339_correct_zone t dst nano : gtime_ok t -> 1 <= time_year t <= 9999 -> Z.abs (t_offset t) < 360000 ->
  exists s y mo d hh mi ss, appendRFC3339Time t dst nano = Some (dst ++ 34 :: s ++ [34]) /\
    date_time s y mo d hh mi ss (if nano then t_nsec t else 0) (60 * Z.quot (t_offset t) 60) /\
    civil (t_unix t + t_offset t) y mo d hh mi ss /\
    exists p, s = p ++ zone_text (t_offset t).
Proof.
  intros Ht Hy Hz. assert (Ys := time_year_correct t).
  set (n := (t_unix t + t_offset t) / 86400 + 719163) in *.
  assert (Hn : 1 <= n <= 3652059).
  { unfold is_year in Ys. assert (M1 := dby_mono 1 (time_year t) ltac:(lia)). assert (M2 := dby_mono (time_year t + 1) 10000 ltac:(lia)).
    change (days_before_year 1) with 0 in M1. change (days_before_year 10000) with 3652059 in M2. lia. }
  destruct (rdnToYmd_correct n Hn) as (y & m & d & Ermd & Hdate & Hyr).
  destruct (rfc3339_date_zone t dst nano n ((t_unix t + t_offset t) mod 86400) y m d) as (out & A & B & C & Q); try assumption; try (unfold n; lia).
  - rewrite u32_id by lia. exact Ermd.
  - exists out. do 6 eexists. eauto.
Qed.
Lemma rfc3339_correct t dst nano : gtime_ok t -> 1 <= time_year t <= 9999 -> Z.abs (t_offset t) < 360000 ->
  exists s y mo d hh mi ss, appendRFC3339Time t dst nano = Some (dst ++ 34 :: s ++ [34]) /\
    date_time s y mo d hh mi ss (if nano then t_nsec t else 0) (60 * Z.quot (t_offset t) 60) /\
    civil (t_unix t + t_offset t) y mo d hh mi ss.
Proof.
  intros A B C. destruct (rfc3339_correct_zone t dst nano A B C) as (s & y & mo & d & hh & mi & ss & X & Y & Z & _). exists s, y, mo, d, hh, mi, ss. auto.
Qed.
