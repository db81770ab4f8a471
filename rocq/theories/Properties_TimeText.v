(** C11, C14: the exact text of a time and of a duration. *)
From Verif Require Import Base JsonSpec NumberProof IntModel IntProof OptionsModel TypesModel DurationModel DurationProof TimeModel CalendarSpec TimeProof FloatModel LeafModel MemModel FieldsModel InstrModel ExecModel ValueModel ExecProof VencFacts MarshalThm
  ApiFacts ExampleHost ExampleVals Properties_Numbers Properties_Time TimeText.

(** With the layouts RFC 3339 and RFC 3339 with a fraction, a time of the years
    1 to 9999 is written in exactly one way: the calendar date and the time of
    day in its zone, the fraction without trailing zeros, and Z for UTC or the
    offset in hours and minutes. *)
Theorem C11_text : forall H vcall m w g opts o nano y r, host_ok H vcall -> holds H m TTime w (VTime g) -> call_opts opts = Some o ->
  rfc3339_layout o nano -> local_year g y -> 1 <= y <= 9999 -> Z.abs (t_offset g) < 360000 ->
  (marshal_returns H m (Some (TTime, w)) opts r <-> exists out, r = MOk out /\ time_text g nano out).
Proof.
  intros H vcall m w g opts o nano y r OK Hr Ho Hl Hy Hb Hz. apply local_year_iff in Hy as ->.
  destruct (append_time_text g nano (holds_time _ _ _ _ _ OK Hr) Hb Hz) as (s & Es & Ts).
  assert (En : encodes H vcall o TTime (VTime g) s None) by (apply time_encodes; [exact OK|]; rewrite (encode_rfc H g o nano ltac:(lia) Hl), Es; reflexivity).
  rewrite (marshal_iff H vcall OK m TTime w _ opts o s None r Hr Ho En). cbn [outcome]. split.
  - intros ->. eauto.
  - intros (out & -> & T). rewrite (time_text_fun _ _ _ _ T Ts). reflexivity.
Qed.
Theorem C11_one_text g nano out out' : time_text g nano out -> time_text g nano out' -> out = out'.
Proof. apply time_text_fun. Qed.

(** ** Instances *)
Ltac at_time := exists 3%nat; split; [vm_compute; reflexivity | discriminate].
Definition utc_time : gtime := mkTime 1600000000 120000000 0.
Definition east_time : gtime := mkTime 1600000000 0 19800.
Definition west_time : gtime := mkTime 1600000000 0 (-12600).
Definition odd_time : gtime := mkTime 1600000000 0 (-30).
Lemma text_of g out : gtime_ok g -> 1 <= time_year g <= 9999 -> Z.abs (t_offset g) < 360000 ->
  marshal_returns exH (cell_mem (CTime g)) (Some (TTime, 100)) [] (MOk out) -> forall x, time_text g true x <-> x = out.
Proof.
  intros Hg Hy Hz R. assert (X := fun r => C11_text exH ex_vcall _ _ g [] default_opts true (time_year g) r ex_ok (time_holds g Hg) eq_refl (conj eq_refl eq_refl) (proj2 (local_year_iff g _) eq_refl) Hy Hz).
  apply X in R. destruct R as (x0 & [= <-] & T). intros x. split; [intros T'; exact (time_text_fun _ _ _ _ T' T) | intros ->; exact T].
Qed.
Ltac instance := apply text_of; [unfold gtime_ok; cbn; lia | vm_compute; split; discriminate | cbn; lia | at_time].
Example C11_ex_utc : forall x, time_text utc_time true x <-> x = lit """2020-09-13T12:26:40.12Z""".
Proof. instance. Qed.
Example C11_ex_east : forall x, time_text east_time true x <-> x = lit """2020-09-13T17:56:40+05:30""".
Proof. instance. Qed.
Example C11_ex_west : forall x, time_text west_time true x <-> x = lit """2020-09-13T08:56:40-03:30""".
Proof. instance. Qed.
(** An offset of half a minute west is written as that of Greenwich. *)
Example C11_ex_seconds : forall x, time_text odd_time true x <-> x = lit """2020-09-13T12:26:10+00:00""".
Proof. instance. Qed.

(** ** C14 *)
Lemma last_strip (prec : nat) f f' : Forall digit f -> Forall digit f' -> (length f <= prec)%nat -> (length f' <= prec)%nat -> f = [] \/ (exists g c, f = g ++ [c] /\ c <> 48) -> f' = [] \/ (exists g c, f' = g ++ [c] /\ c <> 48) ->
  dval f * 10 ^ Z.of_nat (prec - length f) = dval f' * 10 ^ Z.of_nat (prec - length f') -> f = f'.
Proof.
  intros F F' L L' N N' V.
  assert (Pos : forall f g c, Forall digit f -> f = g ++ [c] -> c <> 48 -> forall k, 0 < dval f * 10 ^ Z.of_nat k).
  { intros f0 g c Hf -> Hc k. apply Forall_app in Hf. destruct Hf as [Hg Hd]. inversion Hd; subst. assert (X := dval_digits_nonneg g Hg). rewrite dval_split. unfold digit in *.
    apply Z.mul_pos_pos; [lia | apply Z.pow_pos_nonneg; lia]. }
  destruct N as [-> |(g & c & E & Hc)], N' as [-> |(g' & c' & E' & Hc')].
  - reflexivity.
  - exfalso. assert (X := Pos f' g' c' F' E' Hc' (prec - length f')%nat). change (dval []) with 0 in V. lia.
  - exfalso. assert (X := Pos f g c F E Hc (prec - length f)%nat). change (dval []) with 0 in V. lia.
  - rewrite <- !dval_zeros in V. assert (Z48 : forall k, Forall digit (repeat 48 k)) by (intros k; apply Forall_forall; intros x Hx; apply repeat_spec in Hx; subst; unfold digit; lia).
    assert (X : f ++ repeat 48 (prec - length f) = f' ++ repeat 48 (prec - length f')).
    { apply (dnum_fun prec (dval (f ++ repeat 48 (prec - length f)))).
      - split; [rewrite app_length, repeat_length; lia|]. split; [apply Forall_app; auto | reflexivity].
      - split; [rewrite app_length, repeat_length; lia|]. split; [apply Forall_app; auto | symmetry; exact V]. }
    subst f f'. eapply zeros_strip; eauto.
Qed.
Lemma decimal_fun prec v x x' : decimal prec v x -> decimal prec v x' -> x = x'.
Proof.
  intros (a & f & A & E & F & L & V) (a' & f' & A' & E' & F' & L' & V'). rewrite (C09_literal_unique _ _ _ A A') in E.
  assert (N : f = [] \/ (exists g c, f = g ++ [c] /\ c <> 48)) by tauto. assert (N' : f' = [] \/ (exists g c, f' = g ++ [c] /\ c <> 48)) by tauto.
  assert (f = f') by (eapply (last_strip prec); eauto; congruence). subst f'.
  destruct E as [[-> ->]|[(g & c & -> & _) ->]], E' as [[E1 ->]|[(g' & c' & E1 & _) ->]]; try reflexivity; exfalso; match goal with X : [] = ?g ++ [_] |- _ => destruct g; discriminate X | X : ?g ++ [_] = [] |- _ => destruct g; discriminate X end.
Qed.
Lemma dur_abs_fun u s s' : dur_abs_text u s -> dur_abs_text u s' -> s = s'.
Proof.
  intros A B. destruct A as [E|x R D|x R D|x R D|x R D|m am r x R M Rr D E|h ah m am r x Rh Hh R M Rr D E];
    inversion B as [E'|x' R' D' Ex|x' R' D' Ex|x' R' D' Ex|x' R' D' Ex|m' am' r' x' R' M' Rr' D' E' Ex|h' ah' m' am' r' x' Rh' Hh' R' M' Rr' D' E' Ex]; subst; try (exfalso; lia); try reflexivity;
    try (rewrite (decimal_fun _ _ _ _ D D'); reflexivity).
  - assert (m' = m) by lia. subst m'. assert (r' = r) by lia. subst r'. rewrite (decimal_fun _ _ _ _ D D'), (C09_literal_unique _ _ _ M M'). reflexivity.
  - assert (h' = h) by lia. subst h'. assert (m' = m) by lia. subst m'. assert (r' = r) by lia. subst r'.
    rewrite (decimal_fun _ _ _ _ D D'), (C09_literal_unique _ _ _ M M'), (C09_literal_unique _ _ _ Hh Hh'). reflexivity.
Qed.
Theorem C14_one_text d s s' : dur_spelled d s -> dur_spelled d s' -> s = s'.
Proof. intros [x P A|x P A] B; inversion B as [? P' A'|? P' A']; subst; try lia; [|f_equal]; eapply dur_abs_fun; eauto. Qed.

(** With DurationString a duration is written as Duration.String writes it. *)
Theorem C14_text : forall H vcall m w d opts o r, host_ok H vcall -> holds H m TDuration w (VInt d) -> call_opts opts = Some o -> o_durationFmt o = 0 ->
  (marshal_returns H m (Some (TDuration, w)) opts r <-> exists s, r = MOk (34 :: s ++ [34]) /\ dur_spelled d s).
Proof.
  intros H vcall m w d opts o r OK Hr Ho Hf.
  assert (Hd : - 2 ^ 63 <= d < 2 ^ 63).
  { destruct (holds_repr H vcall OK m TDuration w _ Hr) as [l Hl]. destruct (inv_int _ _ _ _ _ Hl) as (k & U & _ & R). cbn in U. injection U as <-. exact R. }
  destruct (append_duration_exact ([] ++ [34]) d Hd) as (s & Es & _ & Hs).
  assert (En : encodes H vcall o TDuration (VInt d) (34 :: s ++ [34]) None) by (apply duration_encodes; [exact OK|]; unfold encode_duration; rewrite Hf, Es; reflexivity).
  rewrite (marshal_iff H vcall OK m TDuration w _ opts o _ None r Hr Ho En). cbn [outcome]. split.
  - intros ->. eauto.
  - intros (s' & -> & S). rewrite (C14_one_text _ _ _ S Hs). reflexivity.
Qed.

Lemma duration_of d out : - 2 ^ 63 <= d < 2 ^ 63 -> marshal_returns exH (cell_mem (CInt KInt64 d)) (Some (TDuration, 100)) [Some (ODurationFormat 0)] (MOk (34 :: out ++ [34])) -> forall x, dur_spelled d x <-> x = out.
Proof.
  intros Hd R. assert (X := fun r => C14_text exH ex_vcall _ _ d [Some (ODurationFormat 0)] (apply default_opts [Some (ODurationFormat 0)]) r ex_ok (duration_holds d Hd) eq_refl eq_refl).
  apply X in R. destruct R as (x0 & E & T). assert (E' : 34 :: out ++ [34] = 34 :: x0 ++ [34]) by congruence. injection E' as E'. apply app_inv_tail in E'. subst x0.
  intros x. split; [intros T'; exact (C14_one_text _ _ _ T' T) | intros ->; exact T].
Qed.
Example C14_ex_hours : forall x, dur_spelled 3600500000000 x <-> x = lit "1h0m0.5s".
Proof. apply duration_of; [lia | at_time]. Qed.
Example C14_ex_below : forall x, dur_spelled (-999000000) x <-> x = lit "-999ms".
Proof. apply duration_of; [lia | at_time]. Qed.
Example C14_ex_least : forall x, dur_spelled (- 2 ^ 63) x <-> x = lit "-2562047h47m16.854775808s".
Proof. apply duration_of; [lia | at_time]. Qed.

Print Assumptions C11_text.
Print Assumptions C11_one_text.
Print Assumptions C14_text.
Print Assumptions C14_one_text.
