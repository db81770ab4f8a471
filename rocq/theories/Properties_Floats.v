(** Properties C48: the text of a float reads back as the same float. *)
From Verif Require Import Base Utf8 JsonSpec NumberModel NumberProof OptionsModel JsonParse IntModel IntProof TypesModel TypesFacts TimeModel FloatModel FloatProof FloatSpec FloatShort DurationFloat LeafModel LeafProof
  MemModel FieldsModel FieldsProof InstrModel ExecModel ValueModel ExecProof MarshalThm DocSpec ApiFacts ExampleHost ExampleVals ExampleConst ExampleRead Properties_Numbers Properties_Time.

(** ** The value of a number text is unique *)
Lemma span_det l1 : forall l2 r1 r2, Forall digit l1 -> Forall digit l2 -> (forall c t, r1 = c :: t -> ~ digit c) -> (forall c t, r2 = c :: t -> ~ digit c) ->
  l1 ++ r1 = l2 ++ r2 -> l1 = l2 /\ r1 = r2.
Proof.
  induction l1 as [|c l1 IH]; intros [|c' l2] r1 r2 D1 D2 N1 N2 E; cbn [app] in E.
  - auto.
  - exfalso. apply (N1 _ _ E). inversion D2; assumption.
  - exfalso. apply (N2 _ _ (eq_sym E)). inversion D1; assumption.
  - injection E as -> E. inversion D1; inversion D2; subst. destruct (IH _ _ _ ltac:(eassumption) ltac:(eassumption) N1 N2 E). subst. auto.
Qed.

Lemma exp_value_head e x : exp_value e x -> e = [] \/ exists c t, e = c :: t /\ (c = 101 \/ c = 69).
Proof. intros [|c ds Hc _|c ds Hc _|c ds Hc _]; [left; reflexivity | right; eauto | right; eauto | right; eauto]. Qed.

Lemma exp_value_det e x y : exp_value e x -> exp_value e y -> x = y.
Proof.
  intros [|c ds Hc [_ Hd]|c ds Hc [_ Hd]|c ds Hc [_ Hd]] Y; inversion Y as [|c' ds' Hc' [_ Hd'] E1|c' ds' Hc' [_ Hd'] E1|c' ds' Hc' [_ Hd'] E1]; subst; try reflexivity.
  all: exfalso; match goal with X : Forall digit (43 :: _) |- _ => inversion X | X : Forall digit (45 :: _) |- _ => inversion X end; unfold digit in *; lia.
Qed.

(** The parts of an unsigned number. *)
Lemma parts_det i f fd e x i' f' fd' e' x' : jint i -> (f = [] /\ fd = [] \/ f = 46 :: fd /\ digits1 fd) -> exp_value e x ->
  jint i' -> (f' = [] /\ fd' = [] \/ f' = 46 :: fd' /\ digits1 fd') -> exp_value e' x' -> i ++ f ++ e = i' ++ f' ++ e' -> i = i' /\ fd = fd' /\ x = x'.
Proof.
  intros Hi Hf He Hi' Hf' He' E.
  assert (HE : forall e x, exp_value e x -> forall c t, e = c :: t -> ~ digit c).
  { intros e0 x0 H0 c t Ec. destruct (exp_value_head _ _ H0) as [->|(c0 & t0 & -> & Hc)]; [discriminate|]. injection Ec as -> ->. unfold digit. lia. }
  assert (HF : forall f fd e x, (f = [] /\ fd = [] \/ f = 46 :: fd /\ digits1 fd) -> exp_value e x -> forall c t, f ++ e = c :: t -> ~ digit c).
  { intros f0 fd0 e0 x0 [[-> _]|[-> _]] H0 c t Ec; [eapply HE; eauto|]. injection Ec as <- _. unfold digit. lia. }
  destruct (span_det i i' (f ++ e) (f' ++ e') (jint_digits _ Hi) (jint_digits _ Hi') (HF _ _ _ _ Hf He) (HF _ _ _ _ Hf' He') E) as [-> E2]. split; [reflexivity|].
  destruct Hf as [[-> ->]|[-> [_ Hd]]], Hf' as [[-> ->]|[-> [_ Hd']]]; cbn [app] in E2.
  - subst e'. split; [reflexivity|]. eapply exp_value_det; eauto.
  - exfalso. destruct (exp_value_head _ _ He) as [->|(c & t & -> & Hc)]; [discriminate|]. injection E2 as -> _. lia.
  - exfalso. destruct (exp_value_head _ _ He') as [->|(c & t & -> & Hc)]; [discriminate|]. injection E2 as <- _. lia.
  - injection E2 as E2. destruct (span_det fd fd' e e' Hd Hd' (HE _ _ He) (HE _ _ He') E2) as [-> ->]. split; [reflexivity|]. eapply exp_value_det; eauto.
Qed.

Lemma num_value_det s M K M' K' : num_value s M K -> num_value s M' K' -> M = M' /\ K = K'.
Proof.
  assert (N' : forall i r r', jint i -> i ++ r <> 45 :: r') by (intros i r r' [|d ds Hd _] C; [discriminate | injection C as C _; lia]).
  intros [i f fd e x Hi Hf He|i f fd e x Hi Hf He] Y; inversion Y as [i' f' fd' e' x' Hi' Hf' He' E|i' f' fd' e' x' Hi' Hf' He' E]; subst.
  - destruct (parts_det _ _ _ _ _ _ _ _ _ _ Hi' Hf' He' Hi Hf He E) as (-> & -> & ->). auto.
  - exfalso. eapply N'; [exact Hi | exact (eq_sym E)].
  - exfalso. eapply N'; [exact Hi' | exact E].
  - destruct (parts_det _ _ _ _ _ _ _ _ _ _ Hi' Hf' He' Hi Hf He E) as (-> & -> & ->). auto.
Qed.

(** ** C48 *)
(** Reading the text of a float gives that float, and no other. *)
Theorem C48_roundtrip : forall H vcall m t w b neg mm e opts o, host_ok H vcall -> shortest_exact (h_shortest H) -> under (h_env H) t = TFloat b -> DocSpec.plain H t false ->
  holds H m t w (VFloat (FFin neg mm e)) -> float_of b (Zpos mm, e) -> call_opts opts = Some o ->
  exists out, marshal_returns H m (Some (t, w)) opts (MOk out) /\ (exists M K, num_value out M K) /\
    forall M K, num_value out M K -> forall g, reads_as b M K g <-> g = (fsign neg (Zpos mm), e).
Proof.
  intros H vcall m t w b neg mm e opts o OK [Sh Se] Hu Hp Hr Hf Ho. destruct (h_shortest H b mm e) as [ds dp] eqn:Es.
  destruct (C10_finite H vcall m t w b neg mm e opts o ds dp OK Sh Hu Hp Hr Ho Es) as (out & M & K & R & _ & V & Sm & _).
  destruct (Se b mm e ds dp Hf Es) as (Rd & _).
  exists out. split; [exact R|]. split; [eauto|]. intros M' K' V'. destruct (num_value_det _ _ _ _ _ V V') as [<- <-].
  assert (X : reads_as b M K (fsign neg (Zpos mm), e)).
  { apply (reads_same b _ _ _ _ _ Sm). destruct neg; cbn [fsign]; [|exact Rd]. apply (reads_neg b (dval ds) _ (Zpos mm, e)). exact Rd. }
  intros g. split; [intros G; eapply reads_unique; eauto | intros ->; exact X].
Qed.

(** It has the fewest significant digits of any decimal that does so. *)
Theorem C48_shortest : forall H vcall m t w b neg mm e opts o, host_ok H vcall -> shortest_exact (h_shortest H) -> under (h_env H) t = TFloat b -> DocSpec.plain H t false ->
  holds H m t w (VFloat (FFin neg mm e)) -> float_of b (Zpos mm, e) -> call_opts opts = Some o ->
  exists out n, marshal_returns H m (Some (t, w)) opts (MOk out) /\ 1 <= n <= 17 /\
    (forall M K, num_value out M K -> exists M0 K0, same_dec M K M0 K0 /\ Z.abs M0 < 10 ^ n) /\
    (forall M K, reads_as b M K (fsign neg (Zpos mm), e) -> 10 ^ (n - 1) <= Z.abs M).
Proof.
  intros H vcall m t w b neg mm e opts o OK [Sh Se] Hu Hp Hr Hf Ho. destruct (h_shortest H b mm e) as [ds dp] eqn:Es.
  destruct (C10_finite H vcall m t w b neg mm e opts o ds dp OK Sh Hu Hp Hr Ho Es) as (out & M & K & R & _ & V & Sm & _).
  destruct (Se b mm e ds dp Hf Es) as (Rd & Mn). destruct (Sh _ _ _ _ _ Es) as (Hd & (d & tl & Ed & Hd0) & Hl & _).
  exists out, (Z.of_nat (length ds)). split; [exact R|]. split; [subst ds; cbn [length] in *; lia|]. split.
  - intros M' K' V'. destruct (num_value_det _ _ _ _ _ V V') as [<- <-]. eexists _, _. split; [exact Sm|].
    assert (B := dval_bound ds Hd). destruct neg; lia.
  - assert (Pos : forall M K g, 0 < fst g -> reads_as b M K g -> 0 < M).
    { intros M' K' g Hg Rg. destruct (Z_lt_le_dec 0 M') as [L|L]; [exact L|exfalso]. unfold reads_as in Rg.
      assert (Fg : emin b <= snd g) by apply Rg. apply rounds_inside in Rg; [|exact Hg | apply dec_den_pos]. unfold inside in Rg. apply andb_prop in Rg. destruct Rg as [_ Rg]. clear - L Rg Hg Fg.
      assert (D := dec_den_pos K'). assert (P : 0 < 2 ^ (- emin b)) by (destruct b; reflexivity).
      assert (N : dec_num M' K' * 2 ^ (- emin b) <= 0). { unfold dec_num. assert (0 < 10 ^ Z.max 0 K') by (apply pow10_pos; lia). clear - L P H. apply Z.mul_nonpos_nonneg; [apply Z.mul_nonpos_nonneg|]; lia. }
      set (x := dec_num M' K' * 2 ^ (- emin b)) in *. clearbody x. set (h := 2 ^ (snd g - emin b) * dec_den K') in *.
      assert (Hh : 0 < h) by (unfold h; apply Z.mul_pos_pos; [apply pow2_pos; lia | exact D]). clearbody h. assert (U : h <= fst g * h) by nia.
      destruct (lower_half b g); [lia|]. destruct (Z.even (fst g)); lia. }
    intros M' K' R'. destruct neg; cbn [fsign] in R'.
    + assert (Q : reads_as b (- M') K' (Zpos mm, e)) by (apply (reads_neg b M' K' (- Zpos mm, e)) in R'; exact R').
      assert (P := Pos _ _ (Zpos mm, e) eq_refl Q). specialize (Mn _ _ P Q). lia.
    + assert (P := Pos _ _ (Zpos mm, e) eq_refl R'). specialize (Mn _ _ P R'). lia.
Qed.

Lemma reads_zero b : reads_as b 0 0 (0, emin b).
Proof.
  unfold reads_as, rounds. split; [unfold float_of; cbn [fst snd]; destruct b; cbn; lia|]. split; [|destruct b; reflexivity].
  intros g _. split; [|right; reflexivity]. unfold gap at 1. unfold units, dec_num. cbn [fst]. rewrite !Z.mul_0_l. apply Z.abs_nonneg.
Qed.

(** Two different finite floats of a type never have the same text. *)
Definition finite_float (b : bool) (f : fval) : Prop :=
  match f with FZero _ => True | FFin _ mm e => float_of b (Zpos mm, e) | _ => False end.

Theorem C48_distinct : forall H vcall m m' t w w' b f f' opts o out, host_ok H vcall -> shortest_exact (h_shortest H) -> under (h_env H) t = TFloat b -> DocSpec.plain H t false ->
  holds H m t w (VFloat f) -> holds H m' t w' (VFloat f') -> finite_float b f -> finite_float b f' -> call_opts opts = Some o ->
  marshal_returns H m (Some (t, w)) opts (MOk out) -> marshal_returns H m' (Some (t, w')) opts (MOk out) -> f = f'.
Proof.
  intros H vcall m m' t w w' b f f' opts o out OK Sh Hu Hp Hr Hr' Ff Ff' Ho R R'.
  assert (Fin : forall m w neg mm e, holds H m t w (VFloat (FFin neg mm e)) -> float_of b (Zpos mm, e) -> marshal_returns H m (Some (t, w)) opts (MOk out) ->
    (exists M K, num_value out M K) /\ forall M K, num_value out M K -> reads_as b M K (fsign neg (Zpos mm), e)).
  { intros m0 w0 neg mm e Hh Hf R0. destruct (C48_roundtrip H vcall m0 t w0 b neg mm e opts o OK Sh Hu Hp Hh Hf Ho) as (out0 & R1 & V & Q).
    assert (E := marshal_returns_det _ _ _ _ _ _ R0 R1). injection E as <-. split; [exact V|]. intros M K HV. apply (Q M K HV). reflexivity. }
  assert (Zer : forall m w (neg : bool), holds H m t w (VFloat (FZero neg)) -> marshal_returns H m (Some (t, w)) opts (MOk out) -> out = if neg then [45; 48] else [48]).
  { intros m0 w0 neg Hh R0. apply (C10_special H vcall m0 t w0 b (FZero neg) opts o _ OK Hu Hp Hh Ho) in R0. congruence. }
  assert (Mix : forall m w neg mm e (neg' : bool), holds H m t w (VFloat (FFin neg mm e)) -> float_of b (Zpos mm, e) -> marshal_returns H m (Some (t, w)) opts (MOk out) -> out = (if neg' then [45; 48] else [48]) -> False).
  { intros m0 w0 neg mm e neg' Hh Hf R0 Eo. destruct (Fin _ _ _ _ _ Hh Hf R0) as [_ Q].
    assert (V : num_value out 0 0) by (rewrite Eo; destruct neg'; [apply (nv_neg [48] [] [] [] 0) | apply (nv_pos [48] [] [] [] 0)]; try constructor; auto).
    specialize (Q _ _ V). assert (Z0 := reads_zero b).
    assert (X := reads_unique _ _ _ _ _ Q Z0). destruct neg; discriminate X. }
  destruct f as [| |z|n mm e], f' as [| |z'|n' mm' e']; try contradiction.
  - rewrite (Zer _ _ _ Hr R) in R'. apply (C10_special H vcall m' t w' b (FZero z') opts o _ OK Hu Hp Hr' Ho) in R'. destruct z, z'; try reflexivity; discriminate R'.
  - exfalso. eapply (Mix m' w'); eauto.
  - exfalso. eapply (Mix m w); eauto.
  - destruct (Fin _ _ _ _ _ Hr Ff R) as [(M & K & V) Q]. destruct (Fin _ _ _ _ _ Hr' Ff' R') as [_ Q'].
    assert (E := reads_unique _ _ _ _ _ (Q _ _ V) (Q' _ _ V)). destruct n, n'; cbn [fsign] in E; injection E as E1 E2; subst; try reflexivity; discriminate.
Qed.

(** ** C49: durations as minutes or seconds *)
(** The constants DurationMinutes and DurationSeconds of the API. *)
Definition float_fmt (mins : bool) : Z := if mins then 1 else 2.
(** The number of nanoseconds in a minute and a second. *)
Definition nanos (mins : bool) : Z := if mins then 60000000000 else 1000000000.

(** f is d/u up to a relative error of 2^-51. *)
Definition close_to (d u : Z) (f : Z * Z) : Prop :=
  snd f <= 0 /\ 2 ^ 51 * Z.abs (fst f * u - d * 2 ^ (- snd f)) <= Z.abs d * 2 ^ (- snd f).

Lemma dur_float_spec mins d : - 2 ^ 63 <= d < 2 ^ 63 ->
  match dur_float mins d with
  | FZero neg => d = 0 /\ neg = false
  | FFin neg m e => float_of true (Zpos m, e) /\ d <> 0 /\ close_to d (nanos mins) (fsign neg (Zpos m), e) /\ neg = (d <? 0) /\
                    (d mod nanos mins = 0 -> Zpos m * nanos mins = Z.abs d * 2 ^ (- e) /\ e <= 0)
  | _ => False
  end.
Proof.
  intros Hd. unfold dur_float. destruct (Z.eq_dec d 0) as [->|D0]; [destruct mins; vm_compute; auto|].
  destruct (dur_abs mins (Z.abs d)) as [m e] eqn:E. destruct (dur_abs_spec mins (Z.abs d) m e ltac:(lia) E) as (F & M & He & C & W).
  destruct m as [|m|m]; try lia. change (dur_unit mins) with (nanos mins) in *. split; [exact F|]. split; [exact D0|]. split; [|split; [reflexivity|]].
  - unfold close_to. cbn [fst snd]. split; [exact He|]. destruct (d <? 0) eqn:S; cbn [fsign].
    + rewrite (Z.abs_neq d) in * by lia. replace (- Zpos m * nanos mins - d * 2 ^ (- e)) with (- (Zpos m * nanos mins - - d * 2 ^ (- e))) by ring. rewrite Z.abs_opp. exact C.
    + rewrite (Z.abs_eq d) in * by lia. exact C.
  - intros Dv. split; [|exact He]. apply W. destruct (Z.abs_eq_or_opp d) as [->| ->]; [exact Dv|]. apply Z.mod_opp_l_z; [destruct mins; discriminate | exact Dv].
Qed.

Lemma duration_range H vcall m w d : host_ok H vcall -> holds H m TDuration w (VInt d) -> - 2 ^ 63 <= d < 2 ^ 63.
Proof.
  intros OK Hr. destruct (holds_repr H vcall OK m TDuration w _ Hr) as [l Hl]. destruct (inv_int _ _ _ _ _ Hl) as (k & U & _ & R). cbn in U. injection U as <-. exact R.
Qed.

Lemma duration_float_encode sh tf d mins o : o_durationFmt o = float_fmt mins -> encode_duration sh tf d [] o = appendFloat sh [] (tf mins d) true.
Proof. intros E. unfold encode_duration. rewrite E. destruct mins; reflexivity. Qed.

(** The text reads back as a float within 2^-51 of the exact quotient; in
    particular the call never fails. *)
Theorem C49_duration_float : forall H vcall m w d mins opts o, host_ok H vcall -> shortest_exact (h_shortest H) -> h_tofloat H = dur_float ->
  holds H m TDuration w (VInt d) -> call_opts opts = Some o -> o_durationFmt o = float_fmt mins ->
  exists out, marshal_returns H m (Some (TDuration, w)) opts (MOk out) /\ (exists M K, num_value out M K) /\
    forall M K, num_value out M K -> exists f, reads_as true M K f /\ close_to d (nanos mins) f.
Proof.
  intros H vcall m w d mins opts o OK [Sh Se] Ht Hr Ho Hf. assert (Hd := duration_range H vcall m w d OK Hr).
  assert (Enc : forall out, appendFloat (h_shortest H) [] (dur_float mins d) true = Ret out None -> marshal_returns H m (Some (TDuration, w)) opts (MOk out)).
  { intros out Eo. apply (marshal_value H vcall OK m TDuration w _ opts o out None Hr Ho). apply duration_encodes; [exact OK|]. rewrite (duration_float_encode _ _ _ mins) by exact Hf. rewrite Ht. exact Eo. }
  assert (Sp := dur_float_spec mins d Hd). destruct (dur_float mins d) as [| |z|neg mm e]; try contradiction.
  - destruct Sp as [-> ->]. exists [48]. split; [apply Enc; reflexivity|]. assert (V : num_value [48] 0 0) by (apply (nv_pos [48] [] [] [] 0); try constructor; auto).
    split; [eauto|]. intros M K V'. destruct (num_value_det _ _ _ _ _ V V') as [<- <-]. exists (0, emin true). split; [apply reads_zero|].
    unfold close_to. cbn [fst snd]. rewrite !Z.mul_0_l. split; [discriminate | apply Z.le_refl].
  - destruct Sp as (F & _ & C & _ & _). destruct (h_shortest H true mm e) as [ds dp] eqn:Es.
    destruct (float_finite (h_shortest H) [] true neg mm e ds dp Sh Es) as (out & M & K & A & V & Sm & _).
    exists out. split; [apply Enc; exact A|]. split; [eauto|]. intros M' K' V'. destruct (num_value_det _ _ _ _ _ V V') as [<- <-].
    exists (fsign neg (Zpos mm), e). split; [|exact C]. apply (reads_same true _ _ _ _ _ Sm). destruct (Se true mm e ds dp F Es) as (Rd & _).
    destruct neg; cbn [fsign]; [|exact Rd]. apply (reads_neg true (dval ds) _ (Zpos mm, e)). exact Rd.
Qed.

(** A whole number of minutes or seconds is written as that integer. *)
Lemma whole_digits sh i mm e ds dp : shortest_exact sh -> float_of true (Zpos mm, e) -> 0 < i < 1000000000000 -> e <= 0 -> Zpos mm = i * 2 ^ (- e) -> sh true mm e = (ds, dp) ->
  Z.of_nat (length ds) <= dp /\ dval ds * 10 ^ (dp - Z.of_nat (length ds)) = i.
Proof.
  intros [Sh Se] F Hi He Em Es. destruct (Se true mm e ds dp F Es) as (Rd & Mn). destruct (Sh _ _ _ _ _ Es) as (Hd & (c & tl & Ed & Hc0) & Hl & _).
  assert (K4 : 0 < 2 ^ (- e)) by (apply pow2_pos; lia).
  assert (M52 : 2 ^ 52 <= Zpos mm \/ e = -1074). { destruct F as (_ & _ & F). cbn [fst snd] in F. rewrite Z.abs_eq in F by lia. exact F. }
  assert (Big : 4096 <= 2 ^ (- e)).
  { destruct M52 as [X|X]; [|subst e; apply Z.lt_le_incl; reflexivity]. change (2 ^ 52) with 4503599627370496 in X. rewrite Em in X.
    destruct (Z_le_gt_dec 4096 (2 ^ (- e))) as [Y|Y]; [exact Y|exfalso]. assert (i * 2 ^ (- e) <= i * 4096) by (apply Z.mul_le_mono_nonneg_l; lia). lia. }
  assert (Self : reads_as true i 0 (Zpos mm, e)).
  { apply inside_rounds; [exact F | reflexivity | apply dec_den_pos|]. unfold inside, dec_num, dec_den. cbn [fst snd emin]. change (10 ^ Z.max 0 0) with 1. change (10 ^ Z.max 0 (- 0)) with 1. rewrite !Z.mul_1_r.
    replace (- (-1074)) with (- e + (e - -1074)) by lia. assert (L : -1074 <= e) by apply F. rewrite Z.pow_add_r by lia. rewrite Em. replace (i * (2 ^ (- e) * 2 ^ (e - -1074))) with (i * 2 ^ (- e) * 2 ^ (e - -1074)) by ring.
    assert (P : 0 < 2 ^ (e - -1074)) by (apply pow2_pos; lia). set (p := 2 ^ (e - -1074)) in *. clearbody p. set (x := i * 2 ^ (- e) * p) in *. clearbody x.
    apply andb_true_intro. split; [destruct (Z.even _); lia|]. destruct (lower_half _ _); [lia|]. destruct (Z.even _); lia. }
  specialize (Mn i 0 ltac:(lia) Self). assert (N := rounds_near _ _ _ _ Rd ltac:(lia) (dec_den_pos _) He). rewrite Em in N.
  set (n := dec_num _ _) in N. set (dd := dec_den _) in N. assert (D := dec_den_pos (dp - Z.of_nat (length ds))). fold dd in D.
  assert (N' : 8192 * Z.abs (n - i * dd) <= dd).
  { replace (n * 2 ^ (- e) - i * 2 ^ (- e) * dd) with ((n - i * dd) * 2 ^ (- e)) in N by ring. rewrite Z.abs_mul, (Z.abs_eq (2 ^ (- e))) in N by lia.
    assert (Z.abs (n - i * dd) * 4096 <= Z.abs (n - i * dd) * 2 ^ (- e)) by (apply Z.mul_le_mono_nonneg_l; lia). lia. }
  assert (B := dval_bound ds Hd). set (L := Z.of_nat (length ds)) in *. assert (HL : 1 <= L) by (unfold L; subst ds; cbn [length]; lia).
  destruct (Z_le_gt_dec L dp) as [X|X].
  - split; [exact X|]. unfold n, dd, dec_num, dec_den in N'. replace (Z.max 0 (- (dp - L))) with 0 in N' by lia. replace (Z.max 0 (dp - L)) with (dp - L) in N' by lia. change (10 ^ 0) with 1 in N'. lia.
  - exfalso. unfold n, dd, dec_num, dec_den in N'. replace (Z.max 0 (- (dp - L))) with (1 + (L - dp - 1)) in N' by lia. replace (Z.max 0 (dp - L)) with 0 in N' by lia. change (10 ^ 0) with 1 in N'. rewrite Z.pow_add_r in N' by lia. change (10 ^ 1) with 10 in N'.
    assert (T : 0 < 10 ^ (L - dp - 1)) by (apply pow10_pos; lia). set (t := 10 ^ (L - dp - 1)) in *. clearbody t.
    assert (P : 10 ^ L = 10 * 10 ^ (L - 1)) by (rewrite <- Z.pow_succ_r by lia; f_equal; lia). 
    assert (C : dval ds <= 10 * i - 1) by lia. clear - C N' T Hi. assert (Q : 10 * i + 10 * (t - 1) <= i * (10 * t)) by nia. lia.
Qed.

Theorem C49_whole : forall H vcall m w d mins opts o, host_ok H vcall -> shortest_exact (h_shortest H) -> h_tofloat H = dur_float ->
  holds H m TDuration w (VInt d) -> call_opts opts = Some o -> o_durationFmt o = float_fmt mins -> d mod nanos mins = 0 ->
  exists out, marshal_returns H m (Some (TDuration, w)) opts (MOk out) /\ int_lit out (d / nanos mins).
Proof.
  intros H vcall m w d mins opts o OK Se Ht Hr Ho Hf Dv. assert (Hd := duration_range H vcall m w d OK Hr).
  assert (Enc : forall out, appendFloat (h_shortest H) [] (dur_float mins d) true = Ret out None -> marshal_returns H m (Some (TDuration, w)) opts (MOk out)).
  { intros out Eo. apply (marshal_value H vcall OK m TDuration w _ opts o out None Hr Ho). apply duration_encodes; [exact OK|]. rewrite (duration_float_encode _ _ _ mins) by exact Hf. rewrite Ht. exact Eo. }
  assert (Sp := dur_float_spec mins d Hd). destruct (dur_float mins d) as [| |z|neg mm e]; try contradiction.
  - destruct Sp as [-> ->]. exists [48]. split; [apply Enc; reflexivity|]. rewrite Z.div_0_l by (destruct mins; discriminate). constructor.
  - destruct Sp as (F & D0 & _ & Sg & W). destruct (W Dv) as (Ew & He). clear W. destruct (h_shortest H true mm e) as [ds dp] eqn:Es.
    set (u := nanos mins) in *. assert (Hu : 1000000000 <= u) by (unfold u, nanos; destruct mins; lia). clearbody u.
    assert (Ed := Z.div_mod d u ltac:(lia)). rewrite Dv, Z.add_0_r in Ed. set (j := d / u) in *. clearbody j.
    assert (Hi : 0 < Z.abs j < 1000000000000) by (change (2 ^ 63) with 9223372036854775808 in Hd; clear - Ed Hd D0 Hu; nia).
    assert (Em : Zpos mm = Z.abs j * 2 ^ (- e)) by (rewrite Ed, Z.abs_mul, (Z.abs_eq u) in Ew by lia; apply (Z.mul_reg_r _ _ u); lia).
    destruct (whole_digits (h_shortest H) (Z.abs j) mm e ds dp Se F Hi He Em Es) as (Hdp & Ej).
    destruct (proj1 Se _ _ _ _ _ Es) as (Hdg & (c & tl & Eds & Hc0) & Hl & _).
    assert (Pe : 0 < 2 ^ (- e)) by (apply pow2_pos; lia).
    assert (Ux : use_exp true (FFin neg mm e) = false).
    { assert (E52 : -53 < e). { destruct (Z_lt_le_dec (-53) e) as [X|X]; [exact X|exfalso]. assert (Y : 2 ^ 53 <= 2 ^ (- e)) by (apply Z.pow_le_mono_r; lia). destruct F as (_ & F & _). cbn [fst snd prec] in F.
        assert (2 ^ (- e) * 1 <= 2 ^ (- e) * Z.abs j) by (apply Z.mul_le_mono_nonneg_l; lia). lia. }
      unfold use_exp, dy_lt. cbn [fst snd c64_lo c64_hi]. replace (Z.min e (-72)) with (-72) by lia. replace (Z.min e 0) with e by lia.
      rewrite Z.sub_diag. change (2 ^ 0) with 1. replace (2 ^ (-72 - -72)) with 1 by reflexivity. replace (0 - e) with (- e) by lia.
      assert (Lo : 2 ^ 72 <= Zpos mm * 2 ^ (e - -72)).
      { rewrite Em, <- Z.mul_assoc, <- Z.pow_add_r by lia. replace (- e + (e - -72)) with 72 by lia. rewrite <- (Z.mul_1_l (2 ^ 72)) at 1. apply Z.mul_le_mono_nonneg_r; [discriminate | lia]. }
      change (2 ^ 72) with 4722366482869645213696 in Lo. assert (Hh : Zpos mm < 1000000000000000000000 * 2 ^ (- e)) by (rewrite Em; apply Z.mul_lt_mono_pos_r; lia).
      apply orb_false_intro; [lia|]. apply negb_false_iff. apply Z.ltb_lt. rewrite Z.sub_diag, Z.mul_1_r. exact Hh. }
    exists ((if neg then [45] else []) ++ fmtF ds dp). split; [apply Enc; unfold appendFloat, fmt_float; rewrite Ux, Es; reflexivity|].
    assert (Ef : fmtF ds dp = ds ++ repeat 48 (Z.to_nat dp - length ds)).
    { unfold fmtF. replace (0 <? dp) with true by (subst ds; cbn [length] in Hdp; lia). rewrite firstn_all2, skipn_all2 by lia. rewrite Eds. reflexivity. }
    assert (J : jint (ds ++ repeat 48 (Z.to_nat dp - length ds))).
    { rewrite Eds. cbn [app]. rewrite Eds in Hdg. inversion Hdg as [|? ? Q1 Q2]; subst. constructor; [unfold digit in Q1; lia|]. apply Forall_app. split; [exact Q2 | apply digits_repeat]. }
    assert (V : dval (ds ++ repeat 48 (Z.to_nat dp - length ds)) = Z.abs j) by (rewrite dval_pad; rewrite <- Ej; do 2 f_equal; lia).
    assert (N0 : ds ++ repeat 48 (Z.to_nat dp - length ds) <> [48]) by (rewrite Eds; cbn [app]; intros [= X _]; contradiction).
    rewrite Ef. set (s := ds ++ _) in *. clearbody s. rewrite Sg. destruct (d <? 0) eqn:S; cbn [app].
    + assert (Js : j < 0) by (apply Z.ltb_lt in S; clear - S Ed Hu; nia). replace j with (- dval s) by lia. constructor; assumption.
    + assert (Js : 0 <= j) by (apply Z.ltb_ge in S; clear - S Ed Hu; nia). replace j with (dval s) by lia. constructor; assumption.
Qed.

(** ** A host with these functions *)
Definition fl_base : host := constH [] (fun _ _ => false) (fun _ _ _ => inl l_null).
Definition flH : host := mkHost (h_env fl_base) (h_off fl_base) (h_size fl_base) (h_impl fl_base) (h_call fl_base)
  (h_letter fl_base) (h_udigit fl_base) (h_fmt fl_base) dur_float shortest_dec (h_sort fl_base).
Definition fl_vcall := constV (fun _ _ _ => inl l_null).
Lemma fl_ok : host_ok flH fl_vcall.
Proof.
  assert (OK : host_ok fl_base fl_vcall) by (apply constH_ok; [vm_compute; reflexivity|]; intros k td ctx b [= <-]; apply bytes_okb_ok; reflexivity).
  destruct OK as [A1 A2 A3 A4 A5 A6 A7 A8 A9 A10]. constructor; try assumption.
  - destruct A1 as [B1 B2 B3]. constructor; [exact B1 | exact B2 | exact B3].
  - intros k td wl m v ctx dst _. reflexivity.
Qed.
Lemma fl_float b f : holds flH (cell_mem (CFloat b f)) (TFloat b) 100 (VFloat f).
Proof. constructor; [exact I | reflexivity | not_direct|]. intros _. apply R_float with b; reflexivity. Qed.
Lemma fl_dur d : int_range KInt64 d -> holds flH (cell_mem (CInt KInt64 d)) TDuration 100 (VInt d).
Proof. intros Hr. constructor; [exact I | reflexivity | not_direct|]. intros _. apply R_int with KInt64; [reflexivity | reflexivity | exact Hr]. Qed.

(** The float64 nearest to -0.1. *)
Definition tenth : fval := FFin true 7205759403792794 (-56).
Example C48_ex : marshal_returns flH (cell_mem (CFloat true tenth)) (Some (TFloat true, 100)) [] (MOk (lit "-0.1")).
Proof. exists 3%nat. split; [vm_compute; reflexivity | discriminate]. Qed.
Example C48_ex_reads : forall g, reads_as true (- 1) (- 1) g <-> g = (- 7205759403792794, - 56).
Proof.
  destruct (C48_roundtrip flH fl_vcall _ (TFloat true) 100 true true 7205759403792794 (-56) [] default_opts fl_ok shortest_dec_exact eq_refl (conj eq_refl eq_refl) (fl_float true tenth)) as (out & R & _ & Q);
    [vm_compute; intuition discriminate | reflexivity|].
  assert (E := marshal_returns_det _ _ _ _ _ _ R C48_ex). injection E as ->. apply Q.
  apply (nv_neg [48] [46; 49] [49] [] 0); [constructor | right; split; [reflexivity | split; [discriminate | repeat constructor; unfold digit; lia]] | constructor].
Qed.
(** As a float32 the nearest value to 0.1 has another mantissa and the same
    text. *)
Example C48_ex_32 : marshal_returns flH (cell_mem (CFloat false (FFin false 13421773 (-27)))) (Some (TFloat false, 100)) [] (MOk (lit "0.1")).
Proof. exists 3%nat. split; [vm_compute; reflexivity | discriminate]. Qed.
Definition secs_opts : list (option option_) := [Some (ODurationFormat DurationSeconds)].
Example C49_ex : marshal_returns flH (cell_mem (CInt KInt64 (- 1500000000))) (Some (TDuration, 100)) secs_opts (MOk (lit "-1.5")).
Proof. exists 3%nat. split; [vm_compute; reflexivity | discriminate]. Qed.
Example C49_ex_tenth : marshal_returns flH (cell_mem (CInt KInt64 100000000)) (Some (TDuration, 100)) secs_opts (MOk (lit "0.1")).
Proof. exists 3%nat. split; [vm_compute; reflexivity | discriminate]. Qed.
Example C49_ex_applies : exists out, marshal_returns flH (cell_mem (CInt KInt64 (- 7200000000000))) (Some (TDuration, 100)) [Some (ODurationFormat DurationMinutes)] (MOk out) /\ int_lit out (- 120).
Proof.
  apply (C49_whole flH fl_vcall (cell_mem (CInt KInt64 (- 7200000000000))) 100 (- 7200000000000) true [Some (ODurationFormat DurationMinutes)] (apply default_opts [Some (ODurationFormat DurationMinutes)])
    fl_ok shortest_dec_exact); [reflexivity | apply fl_dur; cbn; lia | reflexivity ..].
Qed.
Example C49_ex_close : exists f, reads_as true 1 (- 1) f /\ close_to 100000000 1000000000 f.
Proof.
  destruct (C49_duration_float flH fl_vcall (cell_mem (CInt KInt64 100000000)) 100 100000000 false secs_opts (apply default_opts secs_opts)
    fl_ok shortest_dec_exact) as (out & R & _ & Q); [reflexivity | apply fl_dur; cbn; lia | reflexivity | reflexivity|].
  assert (E := marshal_returns_det _ _ _ _ _ _ R C49_ex_tenth). injection E as ->. apply Q.
  apply (nv_pos [48] [46; 49] [49] [] 0); [constructor | right; split; [reflexivity | split; [discriminate | repeat constructor; unfold digit; lia]] | constructor].
Qed.

Print Assumptions C48_roundtrip.
Print Assumptions C48_shortest.
Print Assumptions C48_distinct.
Print Assumptions C49_duration_float.
Print Assumptions C49_whole.
Print Assumptions shortest_dec_exact.
Print Assumptions dur_abs_spec.
Print Assumptions rnd_rounds.
