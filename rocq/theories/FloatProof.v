(** Floats: grammar and exact decimal value of the text. *)
From Verif Require Import Base JsonSpec IntModel IntProof TypesModel FloatModel.

(** ** Specification: the exact value of a JSON number literal

    [num_value s m k]: the literal s denotes m * 10^k. *)
Inductive exp_value : bytes -> Z -> Prop :=
| ev_none : exp_value [] 0
| ev_plain e ds : e = 101 \/ e = 69 -> digits1 ds -> exp_value (e :: ds) (dval ds)
| ev_plus e ds : e = 101 \/ e = 69 -> digits1 ds -> exp_value (e :: 43 :: ds) (dval ds)
| ev_minus e ds : e = 101 \/ e = 69 -> digits1 ds -> exp_value (e :: 45 :: ds) (- dval ds).

Inductive num_value : bytes -> Z -> Z -> Prop :=
| nv_pos i f fd e x : jint i -> (f = [] /\ fd = [] \/ f = 46 :: fd /\ digits1 fd) -> exp_value e x ->
    num_value (i ++ f ++ e) (dval (i ++ fd)) (x - Z.of_nat (length fd))
| nv_neg i f fd e x : jint i -> (f = [] /\ fd = [] \/ f = 46 :: fd /\ digits1 fd) -> exp_value e x ->
    num_value (45 :: i ++ f ++ e) (- dval (i ++ fd)) (x - Z.of_nat (length fd)).

(** m1 * 10^k1 = m2 * 10^k2 *)
Definition same_dec (m1 k1 m2 k2 : Z) : Prop :=
  m1 * 10 ^ (k1 - Z.min k1 k2) = m2 * 10 ^ (k2 - Z.min k1 k2).

Lemma same_dec_intro m1 k1 m2 k2 k : k <= k1 -> k <= k2 -> m1 * 10 ^ (k1 - k) = m2 * 10 ^ (k2 - k) -> same_dec m1 k1 m2 k2.
Proof.
  intros H1 H2 E. unfold same_dec. set (n := Z.min k1 k2).
  replace (k1 - k) with (k1 - n + (n - k)) in E by lia. replace (k2 - k) with (k2 - n + (n - k)) in E by lia.
  rewrite !Z.pow_add_r in E by lia. assert (0 < 10 ^ (n - k)) by (apply Z.pow_pos_nonneg; lia). nia.
Qed.

Lemma num_value_jnumber s m k : num_value s m k -> jnumber s.
Proof.
  assert (EX : forall e x, exp_value e x -> jexp e).
  { intros e x [|e' ds He Hd|e' ds He Hd|e' ds He Hd].
    - constructor.
    - apply (jexp_some e' [] ds); auto.
    - apply (jexp_some e' [43] ds); auto.
    - apply (jexp_some e' [45] ds); auto. }
  assert (FR : forall f fd, f = [] /\ fd = [] \/ f = 46 :: fd /\ digits1 fd -> jfrac f).
  { intros f fd [[-> _]|[-> Hd]]; [constructor | constructor; assumption]. }
  intros [i f fd e x Hi Hf He|i f fd e x Hi Hf He].
  - exists [], i, f, e. split; [reflexivity|]. split; [auto|]. split; [assumption|]. eauto.
  - exists [45], i, f, e. split; [reflexivity|]. split; [auto|]. split; [assumption|]. eauto.
Qed.

(** ** What is assumed of strconv's shortest decimal *)
Definition shortest_ok (shortest : bool -> positive -> Z -> bytes * Z) : Prop :=
  forall is64 m e ds dp, shortest is64 m e = (ds, dp) ->
    Forall digit ds /\ (exists d t, ds = d :: t /\ d <> 48) /\ (length ds <= 17)%nat /\ -400 < dp < 400.

(** The constants are the nearest floats: |c * 10^6 - 1| is less than half a
    unit in the last place, likewise for 10^21. *)
Lemma c64_lo_nearest : 2 * Z.abs (fst c64_lo * 10 ^ 6 - 2 ^ 72) < 10 ^ 6 /\ 2 ^ 52 <= fst c64_lo < 2 ^ 53.
Proof. vm_compute. intuition discriminate. Qed.
Lemma c32_lo_nearest : 2 * Z.abs (fst c32_lo * 10 ^ 6 - 2 ^ 43) < 10 ^ 6 /\ 2 ^ 23 <= fst c32_lo < 2 ^ 24.
Proof. vm_compute. intuition discriminate. Qed.
Lemma c32_hi_nearest : 2 * Z.abs (fst c32_hi * 2 ^ 46 - 10 ^ 21) < 2 ^ 46 /\ 2 ^ 23 <= fst c32_hi < 2 ^ 24.
Proof. vm_compute. intuition discriminate. Qed.
Lemma c64_hi_exact : exists m e, 2 ^ 52 <= m < 2 ^ 53 /\ 0 <= e /\ fst c64_hi = m * 2 ^ e /\ fst c64_hi = 10 ^ 21.
Proof. exists (10 ^ 21 / 2 ^ 17), 17. vm_compute. intuition discriminate. Qed.

(** ** Layouts *)
Lemma dval_repeat0 k ds : dval (repeat 48 k ++ ds) = dval ds.
Proof. induction k as [|k IH]; [reflexivity|]. cbn [repeat app]. rewrite dval_cons, IH. lia. Qed.

Lemma dval_pad ds k : dval (ds ++ repeat 48 k) = dval ds * 10 ^ Z.of_nat k.
Proof. rewrite dval_app, repeat_length. assert (H := dval_repeat0 k []). rewrite app_nil_r in H. rewrite H. unfold dval at 2. cbn. lia. Qed.

Lemma digits_repeat k : Forall digit (repeat 48 k).
Proof. induction k; cbn; constructor; auto. unfold digit; lia. Qed.

Lemma fmtF_value ds dp : Forall digit ds -> (exists d t, ds = d :: t /\ d <> 48) ->
  exists i f fd, fmtF ds dp = i ++ f /\ jint i /\ (f = [] /\ fd = [] \/ f = 46 :: fd /\ digits1 fd) /\
    same_dec (dval (i ++ fd)) (- Z.of_nat (length fd)) (dval ds) (dp - Z.of_nat (length ds)).
Proof.
  intros Hd (d & t & Eds & Hd0). unfold fmtF. destruct (0 <? dp) eqn:Edp.
  - set (k := Z.to_nat dp). assert (Hk : dp = Z.of_nat k) by (unfold k; lia).
    assert (Hki : jint (firstn k ds ++ repeat 48 (k - length ds))).
    { destruct k as [|k]; [lia|]. rewrite Eds. cbn [firstn app]. rewrite Eds in Hd. inversion Hd as [|? ? Hdd Ht]; subst.
      constructor; [unfold digit in Hdd; lia|]. apply Forall_app. split; [apply Forall_firstn; assumption | apply digits_repeat]. }
    destruct (skipn k ds) as [|c r] eqn:Es.
    + assert (L : (length ds <= k)%nat) by (apply skipn_nil_iff in Es; exact Es).
      exists (firstn k ds ++ repeat 48 (k - length ds)), [], []. split; [rewrite Eds at 1; rewrite app_nil_r; reflexivity|].
      split; [assumption|]. split; [left; auto|].
      rewrite app_nil_r, firstn_all2 by lia. rewrite dval_pad. cbn [length].
      eapply (same_dec_intro _ _ _ _ (- 0)); [lia | lia |]. 
      rewrite Hk. replace (-Z.of_nat 0 - -0) with 0 by lia. replace (Z.of_nat k - Z.of_nat (length ds) - -0) with (Z.of_nat (k - length ds)) by lia.
      change (10 ^ 0) with 1. lia.
    + assert (L : (k < length ds)%nat).
      { destruct (le_lt_dec (length ds) k) as [H|H]; [|exact H]. rewrite skipn_all2 in Es by lia. discriminate. }
      exists (firstn k ds ++ repeat 48 (k - length ds)), (46 :: c :: r), (c :: r). split; [rewrite Eds at 1; reflexivity|].
      split; [assumption|]. split; [right; split; [reflexivity|]; split; [discriminate|]; rewrite <- Es; apply Forall_skipn; assumption|].
      replace (k - length ds)%nat with 0%nat by lia. cbn [repeat]. rewrite app_nil_r. rewrite <- Es, firstn_skipn.
      rewrite skipn_length, Hk. replace (- Z.of_nat (length ds - k)) with (Z.of_nat k - Z.of_nat (length ds)) by lia.
      unfold same_dec. reflexivity.
  - exists [48], (46 :: repeat 48 (Z.to_nat (- dp)) ++ ds), (repeat 48 (Z.to_nat (- dp)) ++ ds).
    split.
    { rewrite Eds. destruct (repeat 48 (Z.to_nat (- dp)) ++ d :: t) eqn:Er; [|reflexivity].
      destruct (repeat 48 (Z.to_nat (- dp))); discriminate. }
    split; [constructor|]. split.
    { right. split; [reflexivity|]. split; [destruct (repeat 48 (Z.to_nat (- dp))); [subst; discriminate | discriminate]|].
      apply Forall_app. split; [apply digits_repeat | assumption]. }
    rewrite dval_app, dval_repeat0, app_length, repeat_length. change (dval [48]) with 0.
    replace (- Z.of_nat (Z.to_nat (- dp) + length ds)) with (dp - Z.of_nat (length ds)) by lia.
    unfold same_dec. lia.
Qed.

Lemma fmt_exp_shape e : -1000 < e < 1000 -> exists ds, fmt_exp e = (if e <? 0 then 45 else 43) :: ds /\
  digits1 ds /\ dval ds = Z.abs e /\ (2 <= length ds <= 3)%nat.
Proof.
  intros He. unfold fmt_exp. set (a := Z.abs e). assert (Ha : 0 <= a < 1000) by (unfold a; lia).
  destruct (a <? 10) eqn:E1; [|destruct (a <? 100) eqn:E2]; eexists; (split; [reflexivity|]);
    (split; [split; [discriminate | repeat constructor; unfold digit; lia]|]);
    (split; [unfold dval; cbn [fold_left]; lia | cbn; lia]).
Qed.

Lemma at_app_r dst s k : (k <= length s)%nat -> at_ (dst ++ s) (length (dst ++ s) - k) = at_ s (length s - k).
Proof.
  intros H. unfold at_. rewrite app_length. rewrite app_nth2 by lia. f_equal. lia.
Qed.

(** The clean-up only sees the number just written. *)
Lemma exp_cleanup_app dst s : (4 <= length s)%nat -> exp_cleanup (dst ++ s) = dst ++ exp_cleanup s.
Proof.
  intros H. unfold exp_cleanup. rewrite !at_app_r by lia.
  replace (4 <=? length (dst ++ s))%nat with true by (rewrite app_length; lia).
  replace (4 <=? length s)%nat with true by lia.
  destruct (true && _ && _ && _); [|reflexivity].
  rewrite app_length. rewrite firstn_app. replace (length dst + length s - 2 - length dst)%nat with (length s - 2)%nat by lia.
  rewrite firstn_all2 by lia. rewrite <- app_assoc. reflexivity.
Qed.

Lemma exp_cleanup_3 pre c x y z : exp_cleanup (pre ++ [c; x; y; z]) =
  if (c =? 101) && (x =? 45) && (y =? 48) then pre ++ [c; x; z] else pre ++ [c; x; y; z].
Proof.
  rewrite exp_cleanup_app by (cbn; lia). unfold exp_cleanup. cbn [length Nat.leb at_ nth Nat.sub andb firstn app].
  destruct ((c =? 101) && (x =? 45) && (y =? 48)); reflexivity.
Qed.

Lemma last4 (s : bytes) : (4 <= length s)%nat -> exists pre c x y z, s = pre ++ [c; x; y; z].
Proof.
  intros H. exists (firstn (length s - 4) s).
  assert (L : length (skipn (length s - 4) s) = 4%nat) by (rewrite skipn_length; lia).
  destruct (skipn (length s - 4) s) as [|c [|x [|y [|z [|w r]]]]] eqn:E; try discriminate.
  exists c, x, y, z. rewrite <- E, firstn_skipn. reflexivity.
Qed.

(** The exponent part of an 'e' text after clean-up: no zero-padded single
    digit negative exponent. *)
Lemma fmtE_value ds dp : Forall digit ds -> (exists d t, ds = d :: t /\ d <> 48) -> -400 < dp < 400 ->
  exists i f fd e x, (forall dst, exp_cleanup (dst ++ fmtE ds dp) = dst ++ i ++ f ++ 101 :: e) /\
    jint i /\ length i = 1%nat /\ (f = [] /\ fd = [] \/ f = 46 :: fd /\ digits1 fd) /\ exp_value (101 :: e) x /\
    ds = i ++ fd /\ x = dp - 1 /\ ~ (exists c, e = [45; 48; c]).
Proof.
  intros Hd (d & t & Eds & Hd0) Hdp.
  assert (Hdig : 49 <= d <= 57) by (rewrite Eds in Hd; inversion Hd as [|? ? Hdd _]; unfold digit in Hdd; lia).
  assert (Ht : Forall digit t) by (rewrite Eds in Hd; inversion Hd; assumption).
  destruct (fmt_exp_shape (dp - 1) ltac:(lia)) as (es & Ees & Hes & Hev & Hel).
  set (m := match t with [] => [d] | _ => d :: 46 :: t end).
  assert (EF : fmtE ds dp = m ++ 101 :: fmt_exp (dp - 1)).
  { rewrite Eds. unfold fmtE, m. destruct t; reflexivity. }
  (* result of the clean-up *)
  assert (Cl : exists es', (forall dst, exp_cleanup (dst ++ fmtE ds dp) = dst ++ m ++ 101 :: (if dp - 1 <? 0 then 45 else 43) :: es') /\
     digits1 es' /\ dval es' = Z.abs (dp - 1) /\ ~ (exists c, (if dp - 1 <? 0 then 45 else 43) :: es' = [45; 48; c])).
  { rewrite EF. set (sg := if dp - 1 <? 0 then 45 else 43) in *.
    assert (Hlen : forall dst, exp_cleanup (dst ++ m ++ 101 :: fmt_exp (dp - 1)) = dst ++ m ++ exp_cleanup (101 :: fmt_exp (dp - 1))).
    { intros dst. rewrite app_assoc. rewrite exp_cleanup_app; [rewrite <- app_assoc; reflexivity|].
      rewrite Ees. cbn [length]. lia. }
    destruct es as [|e1 [|e2 [|e3 [|? ?]]]]; cbn [length] in Hel; try lia.
    - (* two digits *)
      rewrite Ees in Hlen. assert (C := exp_cleanup_3 [] 101 sg e1 e2). cbn [app] in C.
      change (101 =? 101) with true in C. cbn [andb] in C.
      destruct ((sg =? 45) && (e1 =? 48)) eqn:E; rewrite C in Hlen.
      + exists [e2]. rewrite Ees. split; [exact Hlen|]. split; [split; [discriminate | inversion Hes as [_ F]; inversion F; assumption]|].
        split; [|intros (c & Hc); discriminate].
        assert (e1 = 48) by lia. subst e1. rewrite <- Hev. rewrite (dval_cons 48). lia.
      + exists [e1; e2]. rewrite Ees. split; [exact Hlen|]. split; [assumption|]. split; [assumption|].
        intros (c & Hc). injection Hc as Hc1 Hc2 _. lia.
    - (* three digits: the fourth byte from the end is the sign *)
      rewrite Ees in Hlen. assert (C := exp_cleanup_3 [101] sg e1 e2 e3). cbn [app] in C.
      assert (sg =? 101 = false) as Hsg by (unfold sg; destruct (dp - 1 <? 0); reflexivity).
      rewrite Hsg in C. cbn [andb] in C. rewrite C in Hlen.
      exists [e1; e2; e3]. rewrite Ees. split; [exact Hlen|]. split; [assumption|]. split; [assumption|].
      intros (c & Hc). discriminate. }
  destruct Cl as (es' & Cl & Hes' & Hev' & Hno).
  exists [d], (match t with [] => [] | _ => 46 :: t end), t, ((if dp - 1 <? 0 then 45 else 43) :: es'), (dp - 1).
  split.
  { intros dst. rewrite Cl. unfold m. destruct t; reflexivity. }
  split; [constructor; [lia | constructor]|]. split; [reflexivity|].
  split; [destruct t; [left; auto | right; split; [reflexivity | split; [discriminate | assumption]]]|].
  split.
  { destruct (dp - 1 <? 0) eqn:E.
    - replace (dp - 1) with (- dval es') by lia. apply ev_minus; auto.
    - replace (dp - 1) with (dval es') by lia. apply ev_plus; auto. }
  split; [rewrite Eds; reflexivity|]. split; [reflexivity | exact Hno].
Qed.

Lemma no_e_digits ds : Forall digit ds -> ~ In 101 ds.
Proof. intros H Hi. rewrite Forall_forall in H. apply H in Hi. unfold digit in Hi. lia. Qed.

Lemma jint_digits i : jint i -> Forall digit i.
Proof. intros [|d ds Hd H]; repeat constructor; unfold digit in *; try lia; assumption. Qed.

(** ** appendFloat *)
Definition fsign (neg : bool) (m : Z) : Z := if neg then - m else m.

Lemma float_finite shortest dst is64 neg m e ds dp : shortest_ok shortest -> shortest is64 m e = (ds, dp) ->
  exists s M K, appendFloat shortest dst (FFin neg m e) is64 = Ret (dst ++ s) None /\
    num_value s M K /\ same_dec M K (fsign neg (dval ds)) (dp - Z.of_nat (length ds)) /\
    (In 101 s <-> use_exp is64 (FFin neg m e) = true) /\ ~ (exists p c, s = p ++ [101; 45; 48; c]).
Proof.
  intros Hsh Es. destruct (Hsh _ _ _ _ _ Es) as (Hd & Hh & Hl & Hr).
  unfold appendFloat. set (ue := use_exp is64 (FFin neg m e)). unfold fmt_float. rewrite Es.
  set (sg := if neg then [45] else [] : bytes).
  destruct ue.
  - destruct (fmtE_value ds dp Hd Hh Hr) as (i & f & fd & ex & x & Hcl & Hi & Hil & Hf & Hx & Eds & Hxv & Hno).
    rewrite app_assoc, Hcl, <- app_assoc.
    exists (sg ++ i ++ f ++ 101 :: ex), (fsign neg (dval (i ++ fd))), (x - Z.of_nat (length fd)).
    split; [reflexivity|]. split; [|split; [|split]].
    + destruct neg; cbn [sg app fsign]; constructor; assumption.
    + rewrite <- Eds. unfold same_dec. rewrite Eds, app_length, Hil.
      replace (x - Z.of_nat (length fd)) with (dp - Z.of_nat (1 + length fd)) by lia. reflexivity.
    + split; [reflexivity|]. intros _. rewrite !in_app_iff. cbn [In]. auto.
    + intros (p & c & E). apply Hno.
      (* ex is the part after the only 'e' *)
      assert (Nm : ~ In 101 (sg ++ i ++ f)).
      { rewrite !in_app_iff. intros [H|[H|H]].
        - unfold sg in H. destruct neg; [destruct H as [H|[]]; lia | destruct H].
        - eapply no_e_digits; [|exact H]. apply jint_digits. assumption.
        - destruct Hf as [[-> _]|[-> [_ Hfd]]]; [destruct H|]. destruct H as [H|H]; [lia|]. eapply no_e_digits; eauto. }
      rewrite app_assoc, (app_assoc (sg ++ i)) in E. rewrite <- app_assoc in Nm || idtac.
      assert (Split : forall (a b c' d' : bytes), ~ In 101 a -> ~ In 101 d' -> a ++ 101 :: b = c' ++ 101 :: d' -> b = d' \/ In 101 b).
      { induction a as [|y a IH]; intros b c' d' Ha Hd' E'.
        - destruct c' as [|z c']; cbn in E'; injection E' as E'; [left; assumption|]. right. subst b. apply in_or_app. right. left. reflexivity.
        - destruct c' as [|z c']; cbn in E'; injection E' as E1 E2; [exfalso; apply Ha; left; assumption|].
          eapply IH; [|exact Hd'|exact E2]. intros H. apply Ha. right. assumption. }
      assert (Hexd : ~ In 101 ex).
      { inversion Hx as [|e' ds' He' Hds'|e' ds' He' Hds'|e' ds' He' Hds']; subst.
        - apply no_e_digits, Hds'.
        - intros [H|H]; [lia|]. eapply no_e_digits; [apply Hds' | exact H].
        - intros [H|H]; [lia|]. eapply no_e_digits; [apply Hds' | exact H]. }
      exists c. destruct (Z.eq_dec c 101) as [->|Hc].
      * (* then ex would end with 'e' *)
        exfalso. assert (L : In 101 (101 :: ex)) by (left; reflexivity).
        assert (Hlast : last ((sg ++ i) ++ f ++ 101 :: ex) 0 = 101).
        { rewrite app_assoc. rewrite <- app_assoc. rewrite <- (app_assoc sg i). 
          replace (sg ++ i ++ f ++ 101 :: ex) with (p ++ [101; 45; 48; 101]).
          - change [101; 45; 48; 101] with ([101; 45; 48] ++ [101]). rewrite app_assoc. apply last_last.
          - rewrite <- E. rewrite <- ?app_assoc. reflexivity. }
        destruct ex as [|q ex] using rev_ind.
        -- inversion Hx as [|e' ds' He' Hds'| |]; subst. destruct Hds'; congruence.
        -- rewrite app_comm_cons, !app_assoc, last_last in Hlast. apply Hexd. apply in_app_iff. right. left. assumption.
      * assert (E2 : (sg ++ i ++ f) ++ 101 :: ex = p ++ 101 :: [45; 48; c]) by (rewrite <- ?app_assoc in *; exact E).
        assert (N2 : ~ In 101 [45; 48; c]) by (intros [H|[H|[H|[]]]]; lia).
        destruct (Split _ _ _ _ Nm N2 E2) as [H|H]; [exact H | contradiction].
  - destruct (fmtF_value ds dp Hd Hh) as (i & f & fd & Ef & Hi & Hf & Hsame).
    rewrite Ef. exists (sg ++ i ++ f), (fsign neg (dval (i ++ fd))), (0 - Z.of_nat (length fd)).
    assert (Nm : ~ In 101 (sg ++ i ++ f)).
    { rewrite !in_app_iff. intros [H|[H|H]].
      - unfold sg in H. destruct neg; [destruct H as [H|[]]; lia | destruct H].
      - eapply no_e_digits; [|exact H]. apply jint_digits. assumption.
      - destruct Hf as [[-> _]|[-> [_ Hfd]]]; [destruct H|]. destruct H as [H|H]; [lia|]. eapply no_e_digits; eauto. }
    split; [reflexivity|]. split; [|split; [|split]].
    + rewrite <- (app_nil_r f). destruct neg; cbn [sg app fsign]; constructor; try assumption; constructor.
    + replace (0 - Z.of_nat (length fd)) with (- Z.of_nat (length fd)) by lia.
      unfold same_dec in *. destruct neg; cbn [fsign]; [|exact Hsame]. rewrite !Z.mul_opp_l. congruence.
    + split; [intros H; contradiction | discriminate].
    + intros (p & c & E). apply Nm. rewrite E. apply in_app_iff. right. left. reflexivity.
Qed.

Lemma float_zero shortest dst is64 neg :
  appendFloat shortest dst (FZero neg) is64 = Ret (dst ++ (if neg then [45; 48] else [48])) None.
Proof. unfold appendFloat. cbn [use_exp fmt_float fmtF]. destruct neg; reflexivity. Qed.
