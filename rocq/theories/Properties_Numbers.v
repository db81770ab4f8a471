(** Properties C06, C09, C10: numbers. *)
From Verif Require Import Base Utf8 JsonSpec NumberModel NumberProof OptionsModel JsonParse IntModel IntProof TypesModel TypesFacts TimeModel FloatModel FloatProof LeafModel LeafProof
  MemModel FieldsModel FieldsProof InstrModel ExecModel ValueModel ExecProof MarshalThm DocSpec ApiFacts ExampleHost ExampleVals.

(** ** C06: json.Number *)
Lemma number_encodes H vcall o s out err : host_ok H vcall -> encode_number s [] o = Ret out err -> encodes H vcall o TNumber (VStr s) out err.
Proof.
  intros OK He. apply encodes_native; [exact OK | reflexivity | discriminate | exact I|]. intros rec n. cbn [vnative]. rewrite He. reflexivity.
Qed.

(** What Marshal returns for json.Number(s), unless NoNumberValidation is set:
    s if it is a JSON number, "0" if it is empty, else an error. *)
Theorem C06_number : forall H vcall m w s opts o r, host_ok H vcall -> holds H m TNumber w (VStr s) -> call_opts opts = Some o ->
  has (o_flags o) noNumberValidation = false ->
  (marshal_returns H m (Some (TNumber, w)) opts r <->
    (s = [] /\ r = MOk [48]) \/ (jnumber s /\ r = MOk s) \/ (s <> [] /\ ~ jnumber s /\ r = MErr (EInvalidNumber s))).
Proof.
  intros H vcall m w s opts o r OK Hr Ho Hv.
  destruct s as [|c s].
  - rewrite (marshal_iff H vcall OK m TNumber w (VStr []) opts o [48] None r Hr Ho).
    2: { apply number_encodes; [exact OK|]. unfold encode_number. rewrite Hv. reflexivity. }
    cbn [outcome]. split; [intros ->; left; auto|]. intros [[_ ->]|[[N _]|[N _]]]; [reflexivity | | congruence].
    apply jnumber_head in N. destruct N as (c & t & N & _). discriminate.
  - destruct (is_valid_number (c :: s)) eqn:En.
    + assert (J := proj1 (is_valid_number_correct _) En).
      rewrite (marshal_iff H vcall OK m TNumber w (VStr (c :: s)) opts o (c :: s) None r Hr Ho).
      2: { apply number_encodes; [exact OK|]. unfold encode_number. rewrite Hv, En. reflexivity. }
      cbn [outcome]. split; [intros ->; right; left; auto|]. intros [[N _]|[[_ ->]|(_ & N & _)]]; [discriminate | reflexivity | tauto].
    + assert (J : ~ jnumber (c :: s)). { intros J. apply is_valid_number_correct in J. congruence. }
      rewrite (marshal_iff H vcall OK m TNumber w (VStr (c :: s)) opts o [] (Some (EInvalidNumber (c :: s))) r Hr Ho).
      2: { apply number_encodes; [exact OK|]. unfold encode_number. rewrite Hv, En. reflexivity. }
      cbn [outcome]. split; [intros ->; right; right; repeat split; auto; discriminate|]. intros [[N _]|[[N _]|(_ & _ & ->)]]; [discriminate | tauto | reflexivity].
Qed.

Theorem C06_no_validation : forall H vcall m w s opts o r, host_ok H vcall -> holds H m TNumber w (VStr s) -> call_opts opts = Some o ->
  has (o_flags o) noNumberValidation = true ->
  (marshal_returns H m (Some (TNumber, w)) opts r <-> r = MOk (if bytes_eqb s [] then [48] else s)).
Proof.
  intros H vcall m w s opts o r OK Hr Ho Hv. rewrite (marshal_iff H vcall OK m TNumber w (VStr s) opts o (if bytes_eqb s [] then [48] else s) None r Hr Ho); [reflexivity|].
  apply number_encodes; [exact OK|]. unfold encode_number. rewrite Hv. destruct s; reflexivity.
Qed.

Example C06_ex : marshal_returns exH (bytes_mem (lit "-1.5E+08")) (Some (TNumber, 100)) [] (MOk (lit "-1.5E+08")).
Proof.
  apply (C06_number exH ex_vcall _ _ (lit "-1.5E+08") [] default_opts _ ex_ok (number_holds _ (lit_bytes _)) eq_refl eq_refl). right. left. split; [|reflexivity].
  apply is_valid_number_correct. reflexivity.
Qed.
Example C06_ex_bad : marshal_returns exH (bytes_mem (lit "01")) (Some (TNumber, 100)) [] (MErr (EInvalidNumber (lit "01"))).
Proof.
  apply (C06_number exH ex_vcall _ _ (lit "01") [] default_opts _ ex_ok (number_holds _ (lit_bytes _)) eq_refl eq_refl). right. right.
  split; [discriminate|]. split; [|reflexivity]. intros J. apply is_valid_number_correct in J. discriminate J.
Qed.

(** ** C09: integers *)
Theorem C09_integer : forall H vcall m t w k n opts o, host_ok H vcall -> under (h_env H) t = TInt k -> DocSpec.plain H t false ->
  holds H m t w (VInt n) -> call_opts opts = Some o ->
  exists out, marshal_returns H m (Some (t, w)) opts (MOk out) /\ int_lit out n /\ cjson (JNum out) out.
Proof.
  intros H vcall m t w k n opts o OK Hu Hp Hr Ho.
  assert (Hk : int_range k n).
  { destruct (holds_repr H vcall OK m t w (VInt n) Hr) as [l Hl]. destruct (inv_int _ _ _ _ _ Hl) as (k' & U & _ & R). rewrite Hu in U. injection U as <-. exact R. }
  destruct (encode_int_spec k n [] Hk) as (s & Hs & Hl). cbn [app] in Hs. exists s.
  split; [|split; [exact Hl | constructor; eapply int_lit_jnumber; exact Hl]].
  apply (marshal_value H vcall OK m t w (VInt n) opts o s None Hr Ho). rewrite <- Hs. apply encodes_int; try assumption. eapply holds_tok; eauto.
Qed.

(** The theorem covers every integer of every type: those are the values the
    types have. *)
Definition int_bounds (k : ikind) : Z * Z :=
  match k with
  | KInt8 => (-128, 127) | KInt16 => (-32768, 32767) | KInt32 => (-2147483648, 2147483647)
  | KUint8 => (0, 255) | KUint16 => (0, 65535) | KUint32 => (0, 4294967295)
  | KInt | KInt64 => (-9223372036854775808, 9223372036854775807)
  | KUint | KUint64 | KUintptr => (0, 18446744073709551615)
  end.
Theorem C09_values : forall H vcall k n, host_ok H vcall -> ((exists m w, holds H m (TInt k) w (VInt n)) <-> fst (int_bounds k) <= n <= snd (int_bounds k)).
Proof.
  intros H vcall k n OK. assert (B : int_range k n <-> fst (int_bounds k) <= n <= snd (int_bounds k)) by (unfold int_range; destruct k; cbn; lia). rewrite <- B. split.
  - intros (m & w & Hr). destruct (holds_repr H vcall OK m _ w (VInt n) Hr) as [l Hl]. destruct (inv_int _ _ _ _ _ Hl) as (k' & U & _ & R). injection U as <-. exact R.
  - intros R. exists (cell_mem (CInt k n)), 100. constructor; [exact I | reflexivity | not_direct|]. intros _. apply R_int with k; [reflexivity | destruct k; reflexivity | exact R].
Qed.

(** A literal has one value and an integer has one literal. *)
Theorem C09_literal_exact : forall s n1 n2, int_lit s n1 -> int_lit s n2 -> n1 = n2.
Proof. exact int_lit_det. Qed.

Lemma dval_inj a : forall b, Forall digit a -> Forall digit b -> length a = length b -> dval a = dval b -> a = b.
Proof.
  induction a as [|x a IH]; intros [|y b] Ha Hb L E; try discriminate L; [reflexivity|]. inversion Ha; inversion Hb; subst. injection L as L. rewrite !dval_cons, L in E.
  assert (Ba := dval_bound a ltac:(assumption)). assert (Bb := dval_bound b ltac:(assumption)). rewrite L in Ba. set (p := 10 ^ Z.of_nat (length b)) in *.
  assert (x = y) by (unfold digit in *; nia). subst y. f_equal. apply IH; auto. lia.
Qed.

Lemma jint_inj a b : jint a -> jint b -> dval a = dval b -> a = b.
Proof.
  assert (G : forall d ds, 49 <= d <= 57 -> Forall digit ds -> 10 ^ Z.of_nat (length ds) <= dval (d :: ds) < 10 ^ Z.of_nat (S (length ds))).
  { intros d ds Hd Hs. rewrite dval_cons. assert (B := dval_bound ds Hs). rewrite Nat2Z.inj_succ, Z.pow_succ_r by lia. nia. }
  assert (L : forall d ds d' ds', 49 <= d <= 57 -> Forall digit ds -> 49 <= d' <= 57 -> Forall digit ds' -> dval (d :: ds) = dval (d' :: ds') -> (length ds' <= length ds)%nat).
  { intros d ds d' ds' A B A' B' E. destruct (Nat.le_gt_cases (length ds') (length ds)) as [|C]; [assumption|]. exfalso.
    assert (X := G _ _ A B). assert (Y := G _ _ A' B'). assert (Z1 : 10 ^ Z.of_nat (S (length ds)) <= 10 ^ Z.of_nat (length ds')) by (apply Z.pow_le_mono_r; lia). lia. }
  intros [|d ds Hd Hs] [|d' ds' Hd' Hs'] E.
  - reflexivity.
  - assert (X := G _ _ Hd' Hs'). assert (0 < 10 ^ Z.of_nat (length ds')) by (apply Z.pow_pos_nonneg; lia). change (dval [48]) with 0 in E. lia.
  - assert (X := G _ _ Hd Hs). assert (0 < 10 ^ Z.of_nat (length ds)) by (apply Z.pow_pos_nonneg; lia). change (dval [48]) with 0 in E. lia.
  - apply dval_inj; [constructor; [unfold digit; lia | assumption] | constructor; [unfold digit; lia | assumption] | | exact E].
    cbn [length]. f_equal. apply Nat.le_antisymm; [apply (L d' ds' d ds); auto | apply (L d ds d' ds'); auto].
Qed.

Theorem C09_literal_unique : forall s1 s2 n, int_lit s1 n -> int_lit s2 n -> s1 = s2.
Proof.
  intros s1 s2 n [|ds J N|ds J N] H2; inversion H2 as [|ds' J' N' E1 E2|ds' J' N' E1 E2]; subst; try reflexivity; try (assert (X := jint_pos_val _ J N)); try (assert (X' := jint_pos_val _ J' N')); try lia.
  - apply jint_inj; auto.
  - f_equal. apply jint_inj; auto. lia.
Qed.

Example C09_ex : marshal_returns exH (cell_mem (CInt KInt64 (- 2 ^ 63))) (Some (TInt KInt64, 100)) [] (MOk (lit "-9223372036854775808")).
Proof. exists 3%nat. split; [vm_compute; reflexivity | discriminate]. Qed.
Example C09_ex_applies : exists out, marshal_returns exH (cell_mem (CInt KUint64 (2 ^ 64 - 1))) (Some (TInt KUint64, 100)) [] (MOk out) /\ int_lit out (2 ^ 64 - 1).
Proof.
  destruct (C09_integer exH ex_vcall (cell_mem (CInt KUint64 (2 ^ 64 - 1))) (TInt KUint64) 100 KUint64 (2 ^ 64 - 1) [] default_opts ex_ok eq_refl (conj eq_refl eq_refl)) as (out & A & B & _); [apply int_holds; cbn; lia | reflexivity | exists out; split; [exact A | exact B]].
Qed.

(** ** C10: floats *)
(** m1 * 2^e1 < m2 * 2^e2 *)
Definition dyadic_lt (x y : Z * Z) : Prop :=
  fst x * 2 ^ (snd x - Z.min (snd x) (snd y)) < fst y * 2 ^ (snd y - Z.min (snd x) (snd y)).
(** The floats nearest to 10^-6 and 10^21, as mantissa and exponent. *)
Definition lo_limit (is64 : bool) : Z * Z := if is64 then (0x10c6f7a0b5ed8d, -72) else (0x8637bd, -43).
Definition hi_limit (is64 : bool) : Z * Z := if is64 then (7629394531250000, 17) else (0xd8d727, 46).
Definition precision (is64 : bool) : Z := if is64 then 53 else 24.

Theorem C10_limits_nearest : forall is64,
  2 ^ (precision is64 - 1) <= fst (lo_limit is64) < 2 ^ precision is64 /\ 2 * Z.abs (fst (lo_limit is64) * 10 ^ 6 - 2 ^ (- snd (lo_limit is64))) < 10 ^ 6 /\
  2 ^ (precision is64 - 1) <= fst (hi_limit is64) < 2 ^ precision is64 /\ 2 * Z.abs (fst (hi_limit is64) * 2 ^ snd (hi_limit is64) - 10 ^ 21) < 2 ^ snd (hi_limit is64).
Proof. intros [|]; cbn; repeat split; lia. Qed.

Lemma use_exp_spec is64 neg m e : use_exp is64 (FFin neg m e) = true <-> dyadic_lt (Zpos m, e) (lo_limit is64) \/ ~ dyadic_lt (Zpos m, e) (hi_limit is64).
Proof.
  assert (Hd : forall a b c d, dy_lt a b c d = true <-> dyadic_lt (a, b) (c, d)) by (intros; unfold dy_lt, dyadic_lt; cbn [fst snd]; lia).
  unfold use_exp. rewrite orb_true_iff, negb_true_iff, <- not_true_iff_false, !Hd. destruct is64; cbn [lo_limit hi_limit]; [|reflexivity].
  unfold c64_lo, c64_hi. cbn [fst snd].
  assert (Hh : dyadic_lt (Zpos m, e) (1000000000000000000000, 0) <-> dyadic_lt (Zpos m, e) (7629394531250000, 17)); [|rewrite Hh; reflexivity].
  unfold dyadic_lt. cbn [fst snd]. set (M := Zpos m). clearbody M.
  destruct (Z_le_gt_dec e 0) as [A|A].
  - replace (Z.min e 0) with e by lia. replace (Z.min e 17) with e by lia. rewrite Z.sub_diag. replace (17 - e) with (17 + (0 - e)) by lia. rewrite Z.pow_add_r by lia.
    change (2 ^ 17) with 131072. change (2 ^ 0) with 1. nia.
  - replace (Z.min e 0) with 0 by lia. rewrite !Z.sub_0_r. change (2 ^ 0) with 1. destruct (Z_le_gt_dec e 17) as [B|B].
    + replace (Z.min e 17) with e by lia. rewrite Z.sub_diag. change (2 ^ 0) with 1. assert (P : 2 ^ 17 = 2 ^ (17 - e) * 2 ^ e) by (rewrite <- Z.pow_add_r by lia; f_equal; lia).
      change (2 ^ 17) with 131072 in P. assert (0 < 2 ^ e) by (apply Z.pow_pos_nonneg; lia). nia.
    + replace (Z.min e 17) with 17 by lia. rewrite Z.sub_diag. change (2 ^ 0) with 1. assert (P : 2 ^ e = 2 ^ (e - 17) * 2 ^ 17) by (rewrite <- Z.pow_add_r by lia; f_equal; lia).
      change (2 ^ 17) with 131072 in P. nia.
Qed.

(** NaN and infinities give an error; zeros "0" and "-0". *)
Theorem C10_special : forall H vcall m t w b f opts o r, host_ok H vcall -> under (h_env H) t = TFloat b -> DocSpec.plain H t false ->
  holds H m t w (VFloat f) -> call_opts opts = Some o ->
  match f with
  | FNaN => marshal_returns H m (Some (t, w)) opts r <-> r = MErr (EUnsupportedValue (lit "NaN"))
  | FInf neg => marshal_returns H m (Some (t, w)) opts r <-> r = MErr (EUnsupportedValue (if neg then lit "-Inf" else lit "+Inf"))
  | FZero neg => marshal_returns H m (Some (t, w)) opts r <-> r = MOk (if neg then [45; 48] else [48])
  | FFin _ _ _ => True
  end.
Proof.
  intros H vcall m t w b f opts o r OK Hu Hp Hr Ho. assert (Ht := holds_tok H m t w _ Hr). destruct f as [|neg|neg|neg mm e]; auto.
  - rewrite (marshal_iff H vcall OK m t w _ opts o [] (Some (EUnsupportedValue (lit "NaN"))) r Hr Ho); [reflexivity|]. apply (encodes_float H vcall OK o t b); auto.
  - rewrite (marshal_iff H vcall OK m t w _ opts o [] (Some (EUnsupportedValue (if neg then lit "-Inf" else lit "+Inf"))) r Hr Ho); [reflexivity|]. apply (encodes_float H vcall OK o t b); auto.
  - rewrite (marshal_iff H vcall OK m t w _ opts o (if neg then [45; 48] else [48]) None r Hr Ho); [reflexivity|]. apply (encodes_float H vcall OK o t b); auto.
    rewrite float_zero. reflexivity.
Qed.

(** Finite nonzero floats: a JSON number with the value of the shortest
    decimal, in exponent form exactly outside the limits. *)
Theorem C10_finite : forall H vcall m t w b neg mm e opts o ds dp, host_ok H vcall -> shortest_ok (h_shortest H) -> under (h_env H) t = TFloat b -> DocSpec.plain H t false ->
  holds H m t w (VFloat (FFin neg mm e)) -> call_opts opts = Some o -> h_shortest H b mm e = (ds, dp) ->
  exists out M K, marshal_returns H m (Some (t, w)) opts (MOk out) /\ cjson (JNum out) out /\ num_value out M K /\
    same_dec M K (if neg then - dval ds else dval ds) (dp - Z.of_nat (length ds)) /\
    (In 101 out <-> dyadic_lt (Zpos mm, e) (lo_limit b) \/ ~ dyadic_lt (Zpos mm, e) (hi_limit b)) /\
    ~ In 69 out /\ ~ (exists p c, out = p ++ [101; 45; 48; c]).
Proof.
  intros H vcall m t w b neg mm e opts o ds dp OK Hsh Hu Hp Hr Ho Hs.
  destruct (float_finite (h_shortest H) [] b neg mm e ds dp Hsh Hs) as (s & M & K & A & B & C & D & F). cbn [app] in A.
  exists s, M, K. split; [|split; [constructor; eapply num_value_jnumber; exact B | split; [exact B | split; [exact C | split; [rewrite D; apply use_exp_spec | split; [|exact F]]]]]].
  - apply (marshal_value H vcall OK m t w _ opts o s None Hr Ho). eapply encodes_float; eauto. eapply holds_tok; eauto.
  - (* only lower case exponents *)
    destruct (Hsh b mm e ds dp Hs) as (Hd & (d & tl & Ed & Hd0) & _ & Hdp). assert (A1 : s = (if use_exp b (FFin neg mm e) then exp_cleanup (fmt_float (h_shortest H) b (use_exp b (FFin neg mm e)) (FFin neg mm e)) else fmt_float (h_shortest H) b (use_exp b (FFin neg mm e)) (FFin neg mm e))).
    { apply (f_equal (fun x => match x with Ret y _ => y | _ => [] end)) in A. exact (eq_sym A). }
    clear A. rename A1 into A. unfold fmt_float in A. rewrite Hs in A.
    assert (N9 : forall l, Forall digit l -> ~ In 69 l) by (intros l Hl Hi; rewrite Forall_forall in Hl; specialize (Hl 69 Hi); unfold digit in Hl; lia).
    destruct (use_exp b (FFin neg mm e)) eqn:Eu.
    + destruct (fmtE_value ds dp Hd ltac:(eauto) Hdp) as (i & f & fd & x & y & Q1 & Q2 & _ & Q4 & Q5 & _).
      rewrite Q1 in A. subst s. rewrite !in_app_iff. cbn [In]. intros [Hi|[Hi|[Hi|[Hi|Hi]]]].
      * destruct neg; cbn in Hi; intuition discriminate.
      * apply (N9 i); [apply jint_digits; exact Q2 | exact Hi].
      * destruct Q4 as [[-> _]|[-> [_ Q4]]]; [destruct Hi|]. destruct Hi as [Hi|Hi]; [discriminate | exact (N9 fd Q4 Hi)].
      * discriminate.
      * inversion Q5; subst; match goal with X : digits1 _ |- _ => destruct X as [_ X] end; cbn [In] in Hi.
        -- eapply N9; eauto. -- destruct Hi as [Hi|Hi]; [discriminate | eapply N9; eauto]. -- destruct Hi as [Hi|Hi]; [discriminate | eapply N9; eauto].
    + destruct (fmtF_value ds dp Hd ltac:(eauto)) as (i & f & fd & Q1 & Q2 & Q3 & _). rewrite Q1 in A. subst s. rewrite !in_app_iff. intros [Hi|[Hi|Hi]].
      * destruct neg; cbn in Hi; intuition discriminate.
      * apply (N9 i); [apply jint_digits; exact Q2 | exact Hi].
      * destruct Q3 as [[-> _]|[-> [_ Q3]]]; [destruct Hi|]. destruct Hi as [Hi|Hi]; [discriminate | exact (N9 fd Q3 Hi)].
Qed.

(** A host whose shortest decimal is 0.15 * 10^1 shows the hypotheses can be
    met together (1.5 = 3 * 2^-1). *)
Lemma ex_shortest : shortest_ok (h_shortest exH).
Proof. intros is64 m e ds dp [= <- <-]. repeat split; try lia; [repeat constructor; unfold digit; lia | exists 49, []; split; [reflexivity | lia] | cbn; lia]. Qed.

Example C10_ex : exists out M K, marshal_returns exH (cell_mem (CFloat true (FFin true 1 0))) (Some (TFloat true, 100)) [] (MOk out) /\ num_value out M K /\ ~ In 101 out.
Proof.
  destruct (C10_finite exH ex_vcall _ (TFloat true) 100 true true 1 0 [] default_opts [49] 1 ex_ok ex_shortest eq_refl (conj eq_refl eq_refl) (float_holds _ _) eq_refl eq_refl)
    as (out & M & K & A & _ & B & _ & C & _). exists out, M, K. split; [exact A|]. split; [exact B|]. rewrite C. vm_compute. intros [X|X]; [discriminate|]. apply X. reflexivity.
Qed.
Example C10_ex_nan : marshal_returns exH (cell_mem (CFloat false FNaN)) (Some (TFloat false, 100)) [] (MErr (EUnsupportedValue (lit "NaN"))).
Proof. exact (proj2 (C10_special exH ex_vcall _ (TFloat false) 100 false FNaN [] default_opts _ ex_ok eq_refl (conj eq_refl eq_refl) (float_holds _ _) eq_refl) eq_refl). Qed.

Print Assumptions C06_number.
Print Assumptions C09_integer.
Print Assumptions C09_values.
Print Assumptions C10_finite.
Print Assumptions C06_no_validation.
Print Assumptions C09_literal_exact.
Print Assumptions C09_literal_unique.
Print Assumptions C10_limits_nearest.
Print Assumptions C10_special.
