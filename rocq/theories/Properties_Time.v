(** Properties C11-C14, C45: times and durations. *)
From Verif Require Import Base Utf8 JsonSpec OptionsModel JsonParse IntModel IntProof BufModel DurationModel DurationProof CalendarSpec TypesModel TypesFacts TimeModel TimeProof TimeTotal FloatModel FloatProof LeafModel LeafProof
  MemModel FieldsModel FieldsProof InstrModel ExecModel ValueModel ExecProof MarshalThm DocSpec DocLeaf ApiFacts ExampleHost ExampleVals.

(** y is the civil year, in its zone, of the instant g. *)
Definition local_year (g : gtime) (y : Z) : Prop := is_year ((t_unix g + t_offset g) / 86400 + rata_die 1970 1 1) y.

Lemma local_year_iff g y : local_year g y <-> y = time_year g.
Proof.
  assert (Y := time_year_correct g). unfold local_year. change (rata_die 1970 1 1) with 719163. split; [|intros ->; exact Y].
  intros Hy. exact (is_year_unique _ _ _ Hy Y).
Qed.

(** The civil date and time of day are functions of the second count, and the
    RFC 3339 text determines its fields, so that the statements below pin the
    output's meaning. *)
Lemma dbm_mono y m1 m2 : 1 <= m1 -> m1 < m2 <= 12 -> days_before_month y m1 + month_len y m1 <= days_before_month y m2.
Proof.
  intros H1 H2. rewrite !dbm_table by lia.
  assert (C1 : m1 = 1 \/ m1 = 2 \/ m1 = 3 \/ m1 = 4 \/ m1 = 5 \/ m1 = 6 \/ m1 = 7 \/ m1 = 8 \/ m1 = 9 \/ m1 = 10 \/ m1 = 11) by lia.
  assert (C2 : m2 = 2 \/ m2 = 3 \/ m2 = 4 \/ m2 = 5 \/ m2 = 6 \/ m2 = 7 \/ m2 = 8 \/ m2 = 9 \/ m2 = 10 \/ m2 = 11 \/ m2 = 12) by lia.
  unfold month_len. destruct (leap y);
  repeat (destruct C1 as [C1|C1]); subst m1; repeat (destruct C2 as [C2|C2]); subst m2; try lia; vm_compute; congruence.
Qed.

Theorem date_unique : forall n y m d y' m' d', is_date n y m d -> is_date n y' m' d' -> y = y' /\ m = m' /\ d = d'.
Proof.
  intros n y m d y' m' d' A B. assert (y = y') as <- by (eapply is_year_unique; eapply is_date_year; eauto).
  destruct A as (A1 & A2 & A3), B as (B1 & B2 & B3). unfold rata_die in *.
  assert (m = m') as <-.
  { destruct (Z.lt_trichotomy m m') as [L|[L|L]]; [|exact L|].
    - assert (M := dbm_mono y m m' ltac:(lia) ltac:(lia)). lia.
    - assert (M := dbm_mono y m' m ltac:(lia) ltac:(lia)). lia. }
  repeat split; lia.
Qed.

Theorem civil_unique : forall s y m d hh mi ss y' m' d' hh' mi' ss', civil s y m d hh mi ss -> civil s y' m' d' hh' mi' ss' ->
  y = y' /\ m = m' /\ d = d' /\ hh = hh' /\ mi = mi' /\ ss = ss'.
Proof.
  intros s y m d hh mi ss y' m' d' hh' mi' ss' (n & A & B1 & B2 & B3 & B) (n' & A' & C1 & C2 & C3 & C).
  assert (n = n') as <- by lia. destruct (date_unique _ _ _ _ _ _ _ A A') as (-> & -> & ->). repeat split; lia.
Qed.

Lemma dnum_split k n n' s s' r r' : dnum k n s -> dnum k n' s' -> s ++ r = s' ++ r' -> n = n' /\ r = r'.
Proof.
  intros (L & _ & V) (L' & _ & V') E. apply (f_equal (firstn k)) in E as E1. apply (f_equal (skipn k)) in E as E2.
  rewrite !firstn_app, L, L', Nat.sub_diag in E1. cbn [firstn] in E1. rewrite !app_nil_r, !firstn_all2 in E1 by lia.
  rewrite !skipn_app, L, L', Nat.sub_diag in E2. cbn [skipn] in E2. rewrite !skipn_all2 in E2 by lia. split; [congruence | exact E2].
Qed.

Lemma zone_head s z : zoneoff s z -> exists c t, s = c :: t /\ ~ digit c /\ c <> 46.
Proof. intros [ | |]; eexists _, _; (split; [reflexivity|]); unfold digit; lia. Qed.

Lemma zone_det s z z' : zoneoff s z -> zoneoff s z' -> z = z'.
Proof.
  intros A B. destruct A as [|h m sh sm A1 A2 A3|h m sh sm A1 A2 A3].
  - inversion B; reflexivity.
  - inversion B as [|h' m' sh' sm' B1 B2 B3 E|]; subst. destruct (dnum_split _ _ _ _ _ _ _ A1 B1 (eq_sym E)) as [-> E'].
    injection E' as ->. destruct A2 as (_ & _ & <-), B2 as (_ & _ & <-). reflexivity.
  - inversion B as [| |h' m' sh' sm' B1 B2 B3 E]; subst. destruct (dnum_split _ _ _ _ _ _ _ A1 B1 (eq_sym E)) as [-> E'].
    injection E' as ->. destruct A2 as (_ & _ & <-), B2 as (_ & _ & <-). reflexivity.
Qed.

Theorem date_time_det : forall s y mo d hh mi ss ns off y' mo' d' hh' mi' ss' ns' off',
  date_time s y mo d hh mi ss ns off -> date_time s y' mo' d' hh' mi' ss' ns' off' ->
  y = y' /\ mo = mo' /\ d = d' /\ hh = hh' /\ mi = mi' /\ ss = ss' /\ ns = ns' /\ off = off'.
Proof.
  intros s y mo d hh mi ss ns off y' mo' d' hh' mi' ss' ns' off'
    (a1 & a2 & a3 & a4 & a5 & a6 & a7 & a8 & A1 & A2 & A3 & A4 & A5 & A6 & A7 & A8 & ->)
    (b1 & b2 & b3 & b4 & b5 & b6 & b7 & b8 & B1 & B2 & B3 & B4 & B5 & B6 & B7 & B8 & E).
  destruct (dnum_split _ _ _ _ _ _ _ A1 B1 E) as [-> E1]. injection E1 as E1.
  destruct (dnum_split _ _ _ _ _ _ _ A2 B2 E1) as [-> E2]. injection E2 as E2.
  destruct (dnum_split _ _ _ _ _ _ _ A3 B3 E2) as [-> E3]. injection E3 as E3.
  destruct (dnum_split _ _ _ _ _ _ _ A4 B4 E3) as [-> E4]. injection E4 as E4.
  destruct (dnum_split _ _ _ _ _ _ _ A5 B5 E4) as [-> E5]. injection E5 as E5.
  destruct (dnum_split _ _ _ _ _ _ _ A6 B6 E5) as [-> E6].
  do 6 (split; [reflexivity|]).
  destruct (zone_head _ _ A8) as (c & t & Ec & Hc & Hc'), (zone_head _ _ B8) as (c' & t' & Ec' & Hd & Hd').
  assert (X : ns = ns' /\ a8 = b8).
  { destruct A7 as [|f x F1 F2 F3], B7 as [|f' x' G1 G2 G3].
    - split; [reflexivity | exact E6].
    - subst. cbn [app] in E6. injection E6 as E6. congruence.
    - subst. cbn [app] in E6. injection E6 as E6. congruence.
    - cbn [app] in E6. injection E6 as E6. subst a8 b8.
      destruct (digits_split (f ++ [x]) (c :: t) (f' ++ [x']) (c' :: t') F1 G1) as [Ef Et]; [intros ? ? [= <- _]; exact Hc | intros ? ? [= <- _]; exact Hd | exact E6|]. rewrite Ef, Et. split; reflexivity. }
  destruct X as [-> ->]. split; [reflexivity | eapply zone_det; eauto].
Qed.

(** ** C11, C12: RFC 3339 *)
Definition rfc3339_layout (o : encOpts) (nano : bool) : Prop :=
  has (o_flags o) unixTime = false /\
  o_timeLayout o = (if nano then lit "2006-01-02T15:04:05.999999999Z07:00" else lit "2006-01-02T15:04:05Z07:00").

(** out is the quoted RFC 3339 date-time of the instant g in its zone, with
    or without a fraction. *)
Definition rfc3339_of (g : gtime) (nano : bool) (out : bytes) : Prop :=
  exists s y mo d hh mi ss, out = 34 :: s ++ [34] /\
    date_time s y mo d hh mi ss (if nano then t_nsec g else 0) (60 * Z.quot (t_offset g) 60) /\
    civil (t_unix g + t_offset g) y mo d hh mi ss.

Lemma time_encodes H vcall o g out err : host_ok H vcall -> encode_time (h_fmt H) g [] o = Ret out err -> encodes H vcall o TTime (VTime g) out err.
Proof.
  intros OK He. apply encodes_native; [exact OK | reflexivity | discriminate | exact I|]. intros rec n. cbn [vnative]. rewrite He. reflexivity.
Qed.

Lemma holds_time H vcall m w g : host_ok H vcall -> holds H m TTime w (VTime g) -> gtime_ok g.
Proof. intros OK Hr. destruct (holds_repr H vcall OK m TTime w _ Hr) as [l Hl]. apply (inv_time _ _ _ _ _ Hl). Qed.

Lemma encode_rfc H g o nano : 0 <= time_year g <= 9999 -> rfc3339_layout o nano -> encode_time (h_fmt H) g [] o = ret_opt (appendRFC3339Time g [] nano).
Proof.
  intros Hy [Hx Hl]. unfold encode_time. replace ((time_year g <? 0) || (10000 <=? time_year g)) with false by lia. rewrite Hx, Hl.
  destruct nano; reflexivity.
Qed.

Theorem C11_rfc3339 : forall H vcall m w g opts o nano y r, host_ok H vcall -> holds H m TTime w (VTime g) -> call_opts opts = Some o ->
  rfc3339_layout o nano -> local_year g y -> 1 <= y <= 9999 -> Z.abs (t_offset g) < 360000 ->
  (marshal_returns H m (Some (TTime, w)) opts r -> exists out, r = MOk out /\ rfc3339_of g nano out) /\
  (exists out, marshal_returns H m (Some (TTime, w)) opts (MOk out)).
Proof.
  intros H vcall m w g opts o nano y r OK Hr Ho Hl Hy Hb Hz. apply local_year_iff in Hy as ->.
  destruct (rfc3339_correct g [] nano (holds_time _ _ _ _ _ OK Hr) Hb Hz) as (s & y & mo & d & hh & mi & ss & Es & Hd & Hc).
  assert (X := fun r => marshal_iff H vcall OK m TTime w _ opts o (34 :: s ++ [34]) None r Hr Ho). cbn [outcome] in X.
  assert (En : encodes H vcall o TTime (VTime g) (34 :: s ++ [34]) None).
  { apply time_encodes; [exact OK|]. rewrite (encode_rfc H g o nano ltac:(lia) Hl), Es. reflexivity. }
  split; [|eexists; apply X; [exact En | reflexivity]]. intros R. apply X in R; [|exact En]. eexists. split; [exact R|]. exists s, y, mo, d, hh, mi, ss. auto.
Qed.

(** Equal encodings with a fraction mean equal instants when the zone offsets
    are whole minutes. *)
Theorem C11_distinct : forall g g' out, gtime_ok g -> gtime_ok g' -> (60 | t_offset g) -> (60 | t_offset g') ->
  rfc3339_of g true out -> rfc3339_of g' true out -> g = g'.
Proof.
  intros g g' out _ _ [k Hk] [k' Hk'] (s & y & mo & d & hh & mi & ss & -> & D & C) (s' & y' & mo' & d' & hh' & mi' & ss' & E & D' & C').
  injection E as E. apply app_inj_tail in E. destruct E as [<- _].
  destruct (date_time_det _ _ _ _ _ _ _ _ _ _ _ _ _ _ _ _ _ D D') as (-> & -> & -> & -> & -> & -> & N & O).
  destruct C as (n & (_ & _ & A) & _ & _ & _ & B), C' as (n' & (_ & _ & A') & _ & _ & _ & B'). destruct g as [u s1 f], g' as [u' s2 f'].
  cbn [t_unix t_nsec t_offset] in *. rewrite Hk, Hk', !Z.quot_mul in O by lia. assert (f = f') by lia. assert (u = u') by lia. congruence.
Qed.

(** The full statement: whatever the year, Marshal of a time fails exactly
    when its year is outside [0,9999], and otherwise gives the right date. *)
Definition times_correct (H : host) : Prop :=
  forall m w g opts o nano y r, holds H m TTime w (VTime g) -> call_opts opts = Some o -> rfc3339_layout o nano -> local_year g y ->
    Z.abs (t_offset g) < 360000 ->
    (marshal_returns H m (Some (TTime, w)) opts r -> (~ 0 <= y <= 9999 /\ r = MErr EYear) \/ (0 <= y <= 9999 /\ exists out, r = MOk out /\ rfc3339_of g nano out)).

(** Noon of 15 June of year 0: "0000-06-16T/.:00:00Z" is emitted. *)
Definition year0 : gtime := mkTime ((rata_die 0 6 15 - rata_die 1970 1 1) * 86400 + 43200) 0 0.

Lemma year0_ok : gtime_ok year0.
Proof. unfold year0, gtime_ok. cbn [t_unix t_nsec t_offset]. change (rata_die 0 6 15) with (-199). change (rata_die 1970 1 1) with 719163. lia. Qed.

Theorem C12_times_refuted : host_ok exH ex_vcall /\ ~ times_correct exH.
Proof.
  split; [exact ex_ok|]. intros C.
  assert (A : marshal_returns exH (cell_mem (CTime year0)) (Some (TTime, 100)) [] (MOk [34;48;48;48;48;45;48;54;45;49;54;84;47;46;58;48;48;58;48;48;90;34]))
    by (exists 3%nat; split; [vm_compute; reflexivity | discriminate]).
  assert (P1 : rfc3339_layout default_opts true) by (split; reflexivity). assert (P2 : local_year year0 0) by (apply local_year_iff; reflexivity).
  assert (P3 : Z.abs (t_offset year0) < 360000) by (cbn; lia).
  destruct (C _ _ year0 [] default_opts true 0 _ (time_holds year0 year0_ok) eq_refl P1 P2 P3 A) as [[N _]|(_ & out & E & X)].
  - lia.
  - injection E as <-. destruct X as (s & y & mo & d & hh & mi & ss & E & (a1 & a2 & a3 & a4 & a5 & a6 & a7 & a8 & A1 & A2 & A3 & A4 & A5 & A6 & A7 & A8 & ->) & _).
    injection E as E. destruct A1 as (L1 & D1 & _), A2 as (L2 & _), A3 as (L3 & _), A4 as (L4 & D4 & _).
    destruct a1 as [|? [|? [|? [|? [|]]]]]; try discriminate L1. cbn [app] in E. injection E as <- <- <- <- E.
    destruct a2 as [|? [|? [|]]]; try discriminate L2. cbn [app] in E. injection E as <- <- E.
    destruct a3 as [|? [|? [|]]]; try discriminate L3. cbn [app] in E. injection E as <- <- E.
    destruct a4 as [|? [|? [|]]]; try discriminate L4. cbn [app] in E. injection E as <- <- E.
    inversion D4 as [|? ? D _]; subst. unfold digit in D. lia.
Qed.

(** What holds for every time: the error is given exactly outside [0,9999]
    whatever the options, and in [1,9999] the encoding is right.  (Year 0 is
    missing; there the call still returns without failure.) *)
Theorem C12_times_partial : forall H vcall m w g opts o y, host_ok H vcall -> holds H m TTime w (VTime g) -> call_opts opts = Some o -> local_year g y ->
  (forall r, ~ 0 <= y <= 9999 -> (marshal_returns H m (Some (TTime, w)) opts r <-> r = MErr EYear)) /\
  (0 <= y <= 9999 -> exists out, marshal_returns H m (Some (TTime, w)) opts (MOk out)) /\
  (1 <= y <= 9999 -> Z.abs (t_offset g) < 360000 -> forall nano, rfc3339_layout o nano ->
     exists out, marshal_returns H m (Some (TTime, w)) opts (MOk out) /\ rfc3339_of g nano out).
Proof.
  intros H vcall m w g opts o y OK Hr Ho Hy. assert (Hg := holds_time _ _ _ _ _ OK Hr). apply local_year_iff in Hy as Ey.
  split; [|split].
  - intros r Hn. rewrite (marshal_iff H vcall OK m TTime w _ opts o [] (Some EYear) r Hr Ho); [reflexivity|].
    apply time_encodes; [exact OK|]. unfold encode_time. replace ((time_year g <? 0) || (10000 <=? time_year g)) with true by lia. reflexivity.
  - intros Hn. assert (X : exists out, encode_time (h_fmt H) g [] o = Ret out None).
    { unfold encode_time. replace ((time_year g <? 0) || (10000 <=? time_year g)) with false by lia.
      assert (T : forall nano, exists out, ret_opt (appendRFC3339Time g [] nano) = Ret out None).
      { intros nano. destruct (rfc3339_total g [] nano Hg ltac:(lia)) as (s & Es & _). rewrite Es. eexists. reflexivity. }
      destruct (has (o_flags o) unixTime); [eexists; reflexivity|]. destruct (bytes_eqb (o_timeLayout o) layout_RFC3339); [apply T|].
      destruct (bytes_eqb (o_timeLayout o) layout_RFC3339Nano); [apply T | eexists; reflexivity]. }
    destruct X as [out X]. exists out. apply (marshal_value H vcall OK m TTime w (VTime g) opts o out None Hr Ho). apply time_encodes; assumption.
  - intros Hn Hz nano Hl. destruct (C11_rfc3339 H vcall m w g opts o nano y (MErr EYear) OK Hr Ho Hl Hy Hn Hz) as [_ [out A]].
    exists out. split; [exact A|]. destruct (proj1 (C11_rfc3339 H vcall m w g opts o nano y (MOk out) OK Hr Ho Hl Hy Hn Hz) A) as (out' & E & X). injection E as <-. exact X.
Qed.

(** 2024-02-29T23:59:59.12-07:30 *)
Definition leap_day : gtime := mkTime 1709278199 120000000 (-27000).

Lemma leap_day_ok : gtime_ok leap_day.
Proof. repeat split; cbn; lia. Qed.

Example C11_ex : marshal_returns exH (cell_mem (CTime leap_day)) (Some (TTime, 100)) [] (MOk (lit """2024-02-29T23:59:59.12-07:30""")).
Proof. exists 3%nat. split; [vm_compute; reflexivity | discriminate]. Qed.
Example C11_ex_applies : exists out, marshal_returns exH (cell_mem (CTime leap_day)) (Some (TTime, 100)) [Some (OTimeLayout layout_RFC3339)] (MOk out) /\ rfc3339_of leap_day false out.
Proof.
  apply (proj2 (proj2 (C12_times_partial exH ex_vcall _ _ leap_day [Some (OTimeLayout layout_RFC3339)] (apply default_opts [Some (OTimeLayout layout_RFC3339)]) 2024 ex_ok (time_holds _ leap_day_ok) eq_refl (proj2 (local_year_iff leap_day 2024) eq_refl)))); [lia | cbn; lia | split; reflexivity].
Qed.
Example C12_ex_error : marshal_returns exH (cell_mem (CTime (mkTime 253402300800 0 0))) (Some (TTime, 100)) [] (MErr EYear).
Proof.
  apply (proj1 (C12_times_partial exH ex_vcall _ _ (mkTime 253402300800 0 0) [] default_opts 10000 ex_ok (time_holds (mkTime 253402300800 0 0) ltac:(repeat split; cbn; lia)) eq_refl (proj2 (local_year_iff (mkTime 253402300800 0 0) 10000) eq_refl))); [lia | reflexivity].
Qed.

(** ** C13: numbers for times and durations *)
Theorem C13_unix_time : forall H vcall m w g opts o y, host_ok H vcall -> holds H m TTime w (VTime g) -> call_opts opts = Some o ->
  has (o_flags o) unixTime = true -> local_year g y -> 0 <= y <= 9999 ->
  exists out, marshal_returns H m (Some (TTime, w)) opts (MOk out) /\ int_lit out (t_unix g) /\ cjson (JNum out) out.
Proof.
  intros H vcall m w g opts o y OK Hr Ho Hx Hy Hb. apply local_year_iff in Hy as ->.
  destruct (append_int_spec [] (t_unix g)) as (s & Es & Hs). cbn [app] in Es. exists s. split; [|split; [exact Hs | constructor; eapply int_lit_jnumber; exact Hs]].
  apply (marshal_value H vcall OK m TTime w _ opts o s None Hr Ho). apply time_encodes; [exact OK|]. unfold encode_time.
  replace ((time_year g <? 0) || (10000 <=? time_year g)) with false by lia. rewrite Hx, Es. reflexivity.
Qed.

Lemma duration_encodes H vcall o d out err : host_ok H vcall -> encode_duration (h_shortest H) (h_tofloat H) d [] o = Ret out err -> encodes H vcall o TDuration (VInt d) out err.
Proof.
  intros OK He. apply encodes_native; [exact OK | reflexivity | discriminate | exact I|]. intros rec n. cbn [vnative]. rewrite He. reflexivity.
Qed.

(** The number of nanoseconds in the unit of an integer duration format. *)
Inductive whole_unit : Z -> Z -> Prop :=
| wu_ns : whole_unit 5 1
| wu_us : whole_unit 4 1000
| wu_ms : whole_unit 3 1000000.

(** q is d/u rounded toward zero. *)
Definition toward_zero (d u q : Z) : Prop := Z.abs (u * q) <= Z.abs d < Z.abs (u * q) + u /\ 0 <= d * q.

Theorem C13_duration_integer : forall H vcall m w d u opts o, host_ok H vcall -> holds H m TDuration w (VInt d) -> call_opts opts = Some o ->
  whole_unit (o_durationFmt o) u ->
  exists out q, marshal_returns H m (Some (TDuration, w)) opts (MOk out) /\ int_lit out q /\ toward_zero d u q.
Proof.
  intros H vcall m w d u opts o OK Hr Ho Hu.
  assert (X : forall q, encode_duration (h_shortest H) (h_tofloat H) d [] o = Ret (append_int [] q) None -> toward_zero d u q ->
    exists out q, marshal_returns H m (Some (TDuration, w)) opts (MOk out) /\ int_lit out q /\ toward_zero d u q).
  { intros q Hq Hz. destruct (append_int_spec [] q) as (s & Es & Hs). cbn [app] in Es. exists s, q. split; [|split; assumption].
    apply (marshal_value H vcall OK m TDuration w _ opts o s None Hr Ho). apply duration_encodes; [exact OK|]. rewrite Hq, Es. reflexivity. }
  assert (Q : forall u, 0 < u -> toward_zero d u (Z.quot d u)).
  { intros v Hv. assert (E := Z.quot_rem' d v). assert (S := Z.rem_bound_abs d v ltac:(lia)). unfold toward_zero.
    destruct (Z_le_gt_dec 0 d).
    - assert (R := Z.rem_nonneg d v ltac:(lia) ltac:(lia)). assert (P := Z.quot_pos d v ltac:(lia) ltac:(lia)). split; [|nia]. rewrite Z.abs_mul, !Z.abs_eq in * by nia. nia.
    - assert (R := Z.rem_nonpos d v ltac:(lia) ltac:(lia)). assert (P := Z.quot_pos (- d) v ltac:(lia) ltac:(lia)). rewrite Z.quot_opp_l in P by lia. split; [|nia].
      replace (Z.abs (v * (Z.quot d v))) with (v * - Z.quot d v) by (rewrite Z.abs_mul, (Z.abs_neq (Z.quot d v)) by lia; lia). rewrite Z.abs_neq in * by lia. lia. }
  inversion Hu as [E|E|E]; subst u.
  - apply (X d); [|unfold toward_zero; nia]. unfold encode_duration. rewrite <- E. reflexivity.
  - apply (X (Z.quot d 1000)); [|apply Q; lia]. unfold encode_duration. rewrite <- E. reflexivity.
  - apply (X (Z.quot d 1000000)); [|apply Q; lia]. unfold encode_duration. rewrite <- E. reflexivity.
Qed.

Example C13_ex_unix : marshal_returns exH (cell_mem (CTime leap_day)) (Some (TTime, 100)) [Some OUnixTime; Some (OTimeLayout layout_RFC3339)] (MOk (lit "1709278199")).
Proof. exists 3%nat. split; [vm_compute; reflexivity | discriminate]. Qed.
Example C13_ex_applies : exists out, marshal_returns exH (cell_mem (CTime leap_day)) (Some (TTime, 100)) [Some OUnixTime] (MOk out) /\ int_lit out 1709278199.
Proof.
  destruct (C13_unix_time exH ex_vcall _ _ leap_day [Some OUnixTime] (apply default_opts [Some OUnixTime]) 2024 ex_ok (time_holds _ leap_day_ok) eq_refl eq_refl (proj2 (local_year_iff leap_day 2024) eq_refl)) as (out & A & B & _); [lia|].
  exists out. split; assumption.
Qed.
Example C13_ex_duration : exists out q, marshal_returns exH (cell_mem (CInt KInt64 (- 1999999))) (Some (TDuration, 100)) [Some (ODurationFormat DurationMilliseconds)] (MOk out) /\
  int_lit out q /\ toward_zero (- 1999999) 1000000 q.
Proof.
  apply (C13_duration_integer exH ex_vcall _ _ _ 1000000 [Some (ODurationFormat DurationMilliseconds)] (apply default_opts [Some (ODurationFormat DurationMilliseconds)]) ex_ok (duration_holds (- 1999999) ltac:(cbn; lia)) eq_refl). constructor.
Qed.

(** ** C14: duration strings *)
Theorem C14_duration_string : forall H vcall m w d opts o r, host_ok H vcall -> holds H m TDuration w (VInt d) -> call_opts opts = Some o ->
  o_durationFmt o = 0 ->
  (marshal_returns H m (Some (TDuration, w)) opts r -> exists s, r = MOk (34 :: s ++ [34]) /\ dur_text s d /\ (forall d', dur_text s d' -> d' = d)) /\
  (exists r, marshal_returns H m (Some (TDuration, w)) opts r).
Proof.
  intros H vcall m w d opts o r OK Hr Ho Hf.
  assert (Hd : - 2 ^ 63 <= d < 2 ^ 63).
  { destruct (holds_repr H vcall OK m TDuration w _ Hr) as [l Hl]. destruct (inv_int _ _ _ _ _ Hl) as (k & U & _ & R). cbn in U. injection U as <-. exact R. }
  destruct (append_duration_spec ([] ++ [34]) d Hd) as (s & Es & Hs).
  assert (En : encodes H vcall o TDuration (VInt d) (34 :: s ++ [34]) None).
  { apply duration_encodes; [exact OK|]. unfold encode_duration. rewrite Hf, Es. reflexivity. }
  assert (X := fun r => marshal_iff H vcall OK m TDuration w _ opts o _ None r Hr Ho En). cbn [outcome] in X.
  split; [|eexists; apply X; reflexivity]. intros R. apply X in R. exists s. split; [exact R|]. split; [exact Hs|]. intros d' Hd'. eapply dur_text_det; eauto.
Qed.

Example C14_ex : marshal_returns exH (cell_mem (CInt KInt64 (- 2 ^ 63))) (Some (TDuration, 100)) [Some (ODurationFormat DurationString)] (MOk (lit """-2562047h47m16.854775808s""")).
Proof. exists 3%nat. split; [vm_compute; reflexivity | discriminate]. Qed.
Example C14_ex_applies : dur_text (lit "-2562047h47m16.854775808s") (- 2 ^ 63).
Proof.
  destruct (proj1 (C14_duration_string exH ex_vcall _ _ _ [Some (ODurationFormat DurationString)] (apply default_opts [Some (ODurationFormat DurationString)]) _ ex_ok (duration_holds (- 2 ^ 63) ltac:(cbn; lia)) eq_refl eq_refl) C14_ex)
    as (s & E & Hs & _). injection E as E. apply (app_inj_tail (lit "-2562047h47m16.854775808s") s 34 34) in E. destruct E as [-> _]. exact Hs.
Qed.

(** ** C45: custom layouts *)
Definition custom_layout (o : encOpts) : Prop :=
  has (o_flags o) unixTime = false /\ o_timeLayout o <> lit "2006-01-02T15:04:05Z07:00" /\ o_timeLayout o <> lit "2006-01-02T15:04:05.999999999Z07:00".

Definition layouts_are_strings (H : host) : Prop :=
  forall m w g opts o out, holds H m TTime w (VTime g) -> call_opts opts = Some o -> custom_layout o ->
    marshal_returns H m (Some (TTime, w)) opts (MOk out) -> exists us, cjson (JStr us) out.

Lemma layout_encodes H g o : 0 <= time_year g <= 9999 -> custom_layout o -> encode_time (h_fmt H) g [] o = Ret (34 :: h_fmt H g (o_timeLayout o) ++ [34]) None.
Proof.
  intros Hy (Hx & N1 & N2). unfold encode_time. replace ((time_year g <? 0) || (10000 <=? time_year g)) with false by lia. rewrite Hx.
  destruct (bytes_eqb (o_timeLayout o) layout_RFC3339) eqn:E1; [apply bytes_eqb_eq in E1; exfalso; exact (N1 E1)|].
  destruct (bytes_eqb (o_timeLayout o) layout_RFC3339Nano) eqn:E2; [apply bytes_eqb_eq in E2; exfalso; exact (N2 E2)|]. reflexivity.
Qed.

(** A layout holding a quotation mark (package time copies it): three
    quotation marks are emitted. *)
Theorem C45_layout_refuted : host_ok exH ex_vcall /\ ~ layouts_are_strings exH.
Proof.
  split; [exact ex_ok|]. intros C. set (opts := [Some (OTimeLayout [34])]).
  assert (A : marshal_returns exH (cell_mem (CTime leap_day)) (Some (TTime, 100)) opts (MOk [34; 34; 34])) by (exists 3%nat; split; [vm_compute; reflexivity | discriminate]).
  assert (P : custom_layout (apply default_opts opts)) by (repeat split; cbn; discriminate).
  destruct (C _ _ leap_day opts (apply default_opts opts) _ (time_holds _ leap_day_ok) eq_refl P A) as [us Hu].
  - assert (V : json_valid [34; 34; 34] = true).
    { apply json_valid_correct; [repeat constructor; unfold is_byte; lia|]. exists (JStr us). eapply json_text_of_lax. apply json_no_ws_text. exact Hu. }
    vm_compute in V. discriminate.
Qed.

(** What holds: the formatted text is emitted between quotation marks, which
    is the JSON string of that text when it holds no quotation mark, no
    backslash and no control byte, and is UTF-8. *)
Theorem C45_layout_partial : forall H vcall m w g opts o y, host_ok H vcall -> holds H m TTime w (VTime g) -> call_opts opts = Some o -> custom_layout o ->
  local_year g y -> 0 <= y <= 9999 -> plain_text (h_fmt H g (o_timeLayout o)) ->
  exists out us, marshal_returns H m (Some (TTime, w)) opts (MOk out) /\ string_units (h_fmt H g (o_timeLayout o)) us /\ cjson (JStr us) out.
Proof.
  intros H vcall m w g opts o y OK Hr Ho Hl Hy Hb Hp. apply local_year_iff in Hy as ->. destruct (plain_string _ Hp) as (us & Hu & Hj).
  eexists _, us. split; [|split; [exact Hu | exact Hj]]. apply (marshal_value H vcall OK m TTime w _ opts o _ None Hr Ho).
  apply time_encodes; [exact OK | apply layout_encodes; assumption].
Qed.

Example C45_ex : exists out us, marshal_returns exH (cell_mem (CTime leap_day)) (Some (TTime, 100)) [Some (OTimeLayout (lit "Monday"))] (MOk out) /\ string_units (lit "Monday") us /\ cjson (JStr us) out.
Proof.
  apply (C45_layout_partial exH ex_vcall _ _ leap_day [Some (OTimeLayout (lit "Monday"))] (apply default_opts [Some (OTimeLayout (lit "Monday"))]) 2024 ex_ok (time_holds _ leap_day_ok) eq_refl).
  - repeat split; cbn; discriminate.
  - apply local_year_iff. reflexivity.
  - lia.
  - apply plain_ascii. change (Forall pchar [77; 111; 110; 100; 97; 121]). repeat (apply Forall_cons; [unfold pchar; lia|]). apply Forall_nil.
Qed.

Print Assumptions C11_rfc3339.
Print Assumptions C11_distinct.
Print Assumptions C12_times_refuted.
Print Assumptions C12_times_partial.
Print Assumptions C13_unix_time.
Print Assumptions C13_duration_integer.
Print Assumptions C14_duration_string.
Print Assumptions C45_layout_refuted.
Print Assumptions C45_layout_partial.
