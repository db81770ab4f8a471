(** C55: the text of a time and the instant it denotes. *)
From Verif Require Import Base Utf8 JsonSpec OptionsModel DurationModel CalendarSpec TypesModel TypesFacts TimeModel TimeProof TimeTotal LeafModel
  MemModel InstrModel ExecModel ValueModel ExecProof MarshalThm DocSpec ApiFacts ExampleHost ExampleVals Properties_Time Properties_Exact.

(** out is a quoted RFC 3339 date-time which, read back, is the nanosecond ns
    of the second u since 1970-01-01T00:00:00Z. *)
Definition denotes_instant (out : bytes) (u ns : Z) : Prop :=
  exists s y mo d hh mi ss off, out = 34 :: s ++ [34] /\ date_time s y mo d hh mi ss ns off /\ civil (u + off) y mo d hh mi ss.

(** A text denotes one instant. *)
Theorem C55_one_instant out u ns u' ns' : denotes_instant out u ns -> denotes_instant out u' ns' -> u = u' /\ ns = ns'.
Proof.
  intros (s & y & mo & d & hh & mi & ss & off & -> & D & C) (s' & y' & mo' & d' & hh' & mi' & ss' & off' & E & D' & C').
  injection E as E. apply app_inj_tail in E. destruct E as [<- _].
  destruct (date_time_det _ _ _ _ _ _ _ _ _ _ _ _ _ _ _ _ _ D D') as (<- & <- & <- & <- & <- & <- & <- & <-). split; [|reflexivity].
  destruct C as (n & (_ & _ & A) & _ & _ & _ & B), C' as (n' & (_ & _ & A') & _ & _ & _ & B'). lia.
Qed.

(** The full statement: the text denotes the second of the time, and with
    RFC3339Nano its nanosecond. *)
Definition instants_kept (H : host) : Prop :=
  forall m w g opts o nano y, holds H m TTime w (VTime g) -> call_opts opts = Some o -> rfc3339_layout o nano -> local_year g y -> 1 <= y <= 9999 ->
    Z.abs (t_offset g) < 360000 ->
    exists out, marshal_returns H m (Some (TTime, w)) opts (MOk out) /\ denotes_instant out (t_unix g) (if nano then t_nsec g else 0).

(** What the text denotes: the offset is cut to minutes while the time of day
    is not, so the instant moves by the seconds of the offset. *)
Theorem C55_shifted : forall H vcall m w g opts o nano y, host_ok H vcall -> holds H m TTime w (VTime g) -> call_opts opts = Some o -> rfc3339_layout o nano ->
  local_year g y -> 1 <= y <= 9999 -> Z.abs (t_offset g) < 360000 ->
  exists out, (forall r, marshal_returns H m (Some (TTime, w)) opts r <-> r = MOk out) /\ denotes_instant out (t_unix g + Z.rem (t_offset g) 60) (if nano then t_nsec g else 0).
Proof.
  intros H vcall m w g opts o nano y OK Hr Ho Hl Hy Hb Hz.
  destruct (C11_rfc3339 H vcall m w g opts o nano y (MOk []) OK Hr Ho Hl Hy Hb Hz) as (_ & out & R).
  exists out. split; [intros r; split; [intros R'; eapply marshal_returns_det; eassumption | intros ->; exact R]|].
  destruct (proj1 (C11_rfc3339 H vcall m w g opts o nano y _ OK Hr Ho Hl Hy Hb Hz) R) as (out' & E & s & y' & mo & d & hh & mi & ss & Es & D & C). injection E as <-.
  exists s, y', mo, d, hh, mi, ss, (60 * Z.quot (t_offset g) 60). split; [exact Es|]. split; [exact D|].
  replace (t_unix g + Z.rem (t_offset g) 60 + 60 * Z.quot (t_offset g) 60) with (t_unix g + t_offset g); [exact C|].
  assert (X := Z.quot_rem' (t_offset g) 60). lia.
Qed.

(** The text denotes the instant exactly when the offset is a whole number of
    minutes. *)
Theorem C55_exact : forall H vcall m w g opts o nano y, host_ok H vcall -> holds H m TTime w (VTime g) -> call_opts opts = Some o -> rfc3339_layout o nano ->
  local_year g y -> 1 <= y <= 9999 -> Z.abs (t_offset g) < 360000 ->
  exists out, (forall r, marshal_returns H m (Some (TTime, w)) opts r <-> r = MOk out) /\
    (denotes_instant out (t_unix g) (if nano then t_nsec g else 0) <-> (60 | t_offset g)).
Proof.
  intros H vcall m w g opts o nano y OK Hr Ho Hl Hy Hb Hz. destruct (C55_shifted H vcall m w g opts o nano y OK Hr Ho Hl Hy Hb Hz) as (out & R & D).
  exists out. split; [exact R|]. split.
  - intros D'. destruct (C55_one_instant _ _ _ _ _ D D') as [E _]. apply Z.rem_divide; lia.
  - intros Hd. apply Z.rem_divide in Hd; [|lia]. rewrite Hd, Z.add_0_r in D. exact D.
Qed.

Theorem C55_instant_partial : forall H vcall m w g opts o nano y, host_ok H vcall -> holds H m TTime w (VTime g) -> call_opts opts = Some o -> rfc3339_layout o nano ->
  local_year g y -> 1 <= y <= 9999 -> Z.abs (t_offset g) < 360000 -> (60 | t_offset g) ->
  exists out, marshal_returns H m (Some (TTime, w)) opts (MOk out) /\ denotes_instant out (t_unix g) (if nano then t_nsec g else 0).
Proof.
  intros H vcall m w g opts o nano y OK Hr Ho Hl Hy Hb Hz Hd. destruct (C55_exact H vcall m w g opts o nano y OK Hr Ho Hl Hy Hb Hz) as (out & R & D).
  exists out. split; [apply R; reflexivity | apply D, Hd].
Qed.

(** Amsterdam until 1937: 19 minutes and 32 seconds ahead.  Noon of 1 July 1920
    becomes "1920-07-01T12:00:00+00:19". *)
Definition amsterdam : gtime := mkTime ((rata_die 1920 7 1 - rata_die 1970 1 1) * 86400 + 43200 - 1172) 0 1172.
Lemma amsterdam_ok : gtime_ok amsterdam.
Proof. unfold amsterdam, gtime_ok. cbn [t_unix t_nsec t_offset]. change (rata_die 1920 7 1) with 701082. change (rata_die 1970 1 1) with 719163. lia. Qed.
Theorem C55_instant_refuted : host_ok exH ex_vcall /\ ~ instants_kept exH.
Proof.
  split; [exact ex_ok|]. intros C.
  assert (X : Z.rem 1172 60 = 32) by reflexivity.
  destruct (C (cell_mem (CTime amsterdam)) 100 amsterdam [] default_opts true 1920 (time_holds _ amsterdam_ok) eq_refl (conj eq_refl eq_refl)) as (out & R & D);
    [apply local_year_iff; reflexivity | lia | cbn; lia|].
  destruct (C55_exact exH ex_vcall (cell_mem (CTime amsterdam)) 100 amsterdam [] default_opts true 1920 ex_ok (time_holds _ amsterdam_ok) eq_refl (conj eq_refl eq_refl)) as (out' & R' & D');
    [apply local_year_iff; reflexivity | lia | cbn; lia|].
  apply R' in R. injection R as ->. apply D' in D. apply Z.rem_divide in D; [|lia]. cbn [t_offset amsterdam] in D. congruence.
Qed.
Example C55_amsterdam : marshal_returns exH (cell_mem (CTime amsterdam)) (Some (TTime, 100)) [] (MOk (lit """1920-07-01T12:00:00+00:19""")).
Proof. exists 3%nat. split; [vm_compute; reflexivity | discriminate]. Qed.

(** Kathmandu: 5 hours and 45 minutes ahead. *)
Definition kathmandu : gtime := mkTime 0 5 20700.
Lemma kathmandu_ok : gtime_ok kathmandu.
Proof. unfold kathmandu, gtime_ok. cbn [t_unix t_nsec t_offset]. lia. Qed.
Example C55_example : denotes_instant (lit """1970-01-01T05:45:00.000000005+05:45""") 0 5.
Proof.
  assert (R : marshal_returns exH (cell_mem (CTime kathmandu)) (Some (TTime, 100)) [] (MOk (lit """1970-01-01T05:45:00.000000005+05:45"""))) by (exists 3%nat; split; [vm_compute; reflexivity | discriminate]).
  destruct (C55_instant_partial exH ex_vcall (cell_mem (CTime kathmandu)) 100 kathmandu [] default_opts true 1970 ex_ok (time_holds _ kathmandu_ok) eq_refl (conj eq_refl eq_refl)) as (out & R' & D);
    [apply local_year_iff; reflexivity | lia | cbn; lia | exists 345; reflexivity|].
  assert (E := marshal_returns_det _ _ _ _ _ _ R' R). injection E as ->. exact D.
Qed.

Print Assumptions C55_one_instant.
Print Assumptions C55_shifted.
Print Assumptions C55_exact.
Print Assumptions C55_instant_partial.
Print Assumptions C55_instant_refuted.
