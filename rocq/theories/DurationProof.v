(** appendDuration writes a text denoting exactly the duration. *)
From Verif Require Import Base JsonSpec IntModel IntProof BufModel DurationModel.

(** ** Specification: Go's duration notation

    A possibly signed sequence of decimal numbers, each with an optional
    fraction and a unit suffix, such as "-1h15m30.918s"; its value in
    nanoseconds is the signed sum (documentation of time.ParseDuration). *)
Inductive dunit : bytes -> Z -> Prop :=
| du_ns : dunit (lit "ns") 1
| du_us : dunit [0xC2; 0xB5; 115] 1000
| du_ms : dunit (lit "ms") 1000000
| du_s : dunit (lit "s") 1000000000
| du_m : dunit (lit "m") 60000000000
| du_h : dunit (lit "h") 3600000000000.

(** One term: digits a, fraction digits f (possibly none), unit; value v ns. *)
Definition dterm (s : bytes) (v : Z) : Prop :=
  exists a f name u, digits1 a /\ dunit name u /\
    ((f = [] /\ s = a ++ name) \/ (digits1 f /\ s = a ++ 46 :: f ++ name)) /\
    v * 10 ^ Z.of_nat (length f) = dval (a ++ f) * u.

Inductive dterms : bytes -> Z -> Prop :=
| dt_one s v : dterm s v -> dterms s v
| dt_cons s v t w : dterm s v -> dterms t w -> dterms (s ++ t) (v + w).

Inductive dur_text : bytes -> Z -> Prop :=
| dx_pos s v : dterms s v -> dur_text s v
| dx_neg s v : dterms s v -> dur_text (45 :: s) (- v).

(** ** Specification: the text of Duration.String (package time)

    Seconds, milliseconds, microseconds or nanoseconds for durations below a
    second, otherwise hours, minutes and seconds; hours and minutes start with
    the first that is not zero, and fractions end with a digit that is not zero.
    [decimal prec v x]: x is v / 10^prec. *)
Definition decimal (prec : nat) (v : Z) (x : bytes) : Prop :=
  exists a f, int_lit a (v / 10 ^ Z.of_nat prec) /\ (f = [] /\ x = a \/ (exists g c, f = g ++ [c] /\ c <> 48) /\ x = a ++ 46 :: f) /\
    Forall digit f /\ (length f <= prec)%nat /\ v mod 10 ^ Z.of_nat prec = dval f * 10 ^ Z.of_nat (prec - length f).

Inductive dur_abs_text (u : Z) : bytes -> Prop :=
| da_zero : u = 0 -> dur_abs_text u (lit "0s")
| da_ns x : 0 < u < 1000 -> decimal 0 u x -> dur_abs_text u (x ++ lit "ns")
| da_us x : 1000 <= u < 1000000 -> decimal 3 u x -> dur_abs_text u (x ++ [0xC2; 0xB5] ++ lit "s")
| da_ms x : 1000000 <= u < 1000000000 -> decimal 6 u x -> dur_abs_text u (x ++ lit "ms")
| da_s x : 1000000000 <= u < 60000000000 -> decimal 9 u x -> dur_abs_text u (x ++ lit "s")
| da_m m am r x : 0 < m < 60 -> int_lit am m -> 0 <= r < 60000000000 -> decimal 9 r x -> u = m * 60000000000 + r -> dur_abs_text u (am ++ lit "m" ++ x ++ lit "s")
| da_h h ah m am r x : 0 < h -> int_lit ah h -> 0 <= m < 60 -> int_lit am m -> 0 <= r < 60000000000 -> decimal 9 r x -> u = h * 3600000000000 + m * 60000000000 + r ->
    dur_abs_text u (ah ++ lit "h" ++ am ++ lit "m" ++ x ++ lit "s").

Inductive dur_spelled (d : Z) : bytes -> Prop :=
| dp_pos s : 0 <= d -> dur_abs_text d s -> dur_spelled d s
| dp_neg s : d < 0 -> dur_abs_text (- d) s -> dur_spelled d (45 :: s).

(** ** The scratch buffer as a growing suffix *)
Definition st (buf : bytes) (l : nat) (suf : bytes) : Prop :=
  length buf = 32%nat /\ (l <= 32)%nat /\ skipn l buf = suf.

Lemma st_len buf l suf : st buf l suf -> (l + length suf = 32)%nat.
Proof. intros (H1 & H2 & H3). rewrite <- H3, skipn_length, H1. lia. Qed.

Lemma st_push buf l suf v : st buf l suf -> (length suf < 32)%nat ->
  exists buf' l', bpush buf l v = Some (buf', l') /\ st buf' l' (v :: suf).
Proof.
  intros H Hl. assert (L := st_len _ _ _ H). destruct H as (H1 & H2 & H3).
  destruct (bpush_ok buf l v) as (buf' & E & Hlen & Hs); [lia|].
  exists buf', (l - 1)%nat. split; [exact E|]. split; [congruence|]. split; [lia | congruence].
Qed.

Lemma fmt_int_loop_spec fuel : forall k buf l suf v, st buf l suf -> 0 <= v < 10 ^ Z.of_nat k -> (k <= fuel)%nat ->
  (length suf + k <= 32)%nat ->
  exists buf' l' ds, fmt_int_loop fuel buf l v = Some (buf', l') /\ st buf' l' (ds ++ suf) /\
    Forall digit ds /\ dval ds = v /\ (length ds <= k)%nat /\ (0 < v -> exists c t, ds = c :: t /\ c <> 48).
Proof.
  induction fuel as [|f IH]; intros k buf l suf v Hst Hv Hk Hl.
  - assert (k = 0)%nat by lia. subst k. change (10 ^ Z.of_nat 0) with 1 in Hv.
    cbn [fmt_int_loop]. replace (0 <? v) with false by lia. exists buf, l, []. repeat split; auto; try apply Hst; try lia; cbn; lia.
  - cbn [fmt_int_loop]. destruct (0 <? v) eqn:E.
    + destruct k as [|k]; [change (10 ^ Z.of_nat 0) with 1 in Hv; lia|].
      rewrite Nat2Z.inj_succ, Z.pow_succ_r in Hv by lia.
      destruct (st_push buf l suf (v mod 10 + 48) Hst ltac:(lia)) as (b' & l' & Ep & Hst'). rewrite Ep.
      destruct (IH k b' l' _ (v / 10) Hst') as (b2 & l2 & ds & E2 & Hst2 & Hd & Hval & Hlen & Hh); [lia | lia | cbn [length]; lia |].
      exists b2, l2, (ds ++ [v mod 10 + 48]). split; [exact E2|]. split; [rewrite <- app_assoc; exact Hst2|].
      split; [apply Forall_app; split; [assumption | constructor; [unfold digit; lia | constructor]]|].
      split; [rewrite dval_app, Hval; cbn [length]; change (10 ^ Z.of_nat 1) with 10; unfold dval; cbn [fold_left]; lia|].
      rewrite app_length. cbn [length]. split; [lia|]. intros _. destruct (0 <? v / 10) eqn:E10.
      * destruct Hh as (c & t & -> & Hc); [lia|]. exists c, (t ++ [v mod 10 + 48]). split; [reflexivity | exact Hc].
      * destruct ds as [|c t]; [exists (v mod 10 + 48), []; split; [reflexivity | lia]|]. exists c, (t ++ [v mod 10 + 48]). split; [reflexivity|]. intros ->.
        exfalso. destruct f; cbn [fmt_int_loop] in E2; rewrite E10 in E2; injection E2 as <- <-; destruct Hst' as (_ & _ & X1); destruct Hst2 as (_ & _ & X2); rewrite X1 in X2; apply (f_equal (@length Z)) in X2; rewrite app_length in X2; cbn [length] in X2; lia.
    + exists buf, l, []. repeat split; auto; try apply Hst; try lia. cbn; lia. cbn; lia.
Qed.

Lemma fmt_int_spec k buf l suf v : st buf l suf -> 0 <= v < 10 ^ Z.of_nat k -> (1 <= k <= 20)%nat ->
  (length suf + k <= 32)%nat ->
  exists buf' l' ds, fmt_int buf l v = Some (buf', l') /\ st buf' l' (ds ++ suf) /\
    digits1 ds /\ dval ds = v /\ (length ds <= k)%nat /\ int_lit ds v.
Proof.
  intros Hst Hv Hk Hl. unfold fmt_int. destruct (v =? 0) eqn:E.
  - destruct (st_push buf l suf 48 Hst ltac:(lia)) as (b' & l' & Ep & Hst'). rewrite Ep.
    exists b', l', [48]. split; [reflexivity|]. split; [exact Hst'|].
    split; [split; [discriminate | constructor; [unfold digit; lia | constructor]]|]. split; [cbn; lia|]. split; [cbn; lia|]. replace v with 0 by lia. constructor.
  - destruct (fmt_int_loop_spec 20 k buf l suf v Hst Hv ltac:(lia) Hl) as (b' & l' & ds & E1 & H1 & H2 & H3 & H4 & H5).
    exists b', l', ds. split; [exact E1|]. split; [exact H1|]. destruct H5 as (c & t & -> & Hc); [lia|]. split; [split; [discriminate | exact H2]|].
    split; [exact H3|]. split; [exact H4|]. rewrite <- H3. inversion H2 as [|? ? Hc' Ht]; subst. unfold digit in Hc'. constructor; [constructor; [lia | exact Ht] | congruence].
Qed.

Lemma fmt_frac_loop_spec n : forall buf l suf v p, st buf l suf -> 0 <= v -> (length suf + n <= 32)%nat ->
  exists buf' l' fs p', fmt_frac_loop n buf l v p = Some (buf', l', v / 10 ^ Z.of_nat n, p') /\
    st buf' l' (fs ++ suf) /\ Forall digit fs /\ (length fs <= n)%nat /\
    v mod 10 ^ Z.of_nat n = dval fs * 10 ^ Z.of_nat (n - length fs) /\
    (p = true -> p' = true /\ length fs = n) /\ (p' = false -> fs = []) /\ (p = false -> p' = true -> exists g c, fs = g ++ [c] /\ c <> 48).
Proof.
  induction n as [|n IH]; intros buf l suf v p Hst Hv Hl.
  - cbn [fmt_frac_loop]. change (10 ^ Z.of_nat 0) with 1. rewrite Z.div_1_r, Z.mod_1_r.
    exists buf, l, [], p. repeat split; auto; try apply Hst. congruence.
  - cbn [fmt_frac_loop]. rewrite Nat2Z.inj_succ, Z.pow_succ_r by lia.
    assert (Hq : v / (10 * 10 ^ Z.of_nat n) = v / 10 / 10 ^ Z.of_nat n).
    { rewrite Z.div_div by (try lia; apply Z.pow_pos_nonneg; lia). reflexivity. }
    assert (Hm : v mod (10 * 10 ^ Z.of_nat n) = (v / 10) mod 10 ^ Z.of_nat n * 10 + v mod 10).
    { assert (P : 0 < 10 ^ Z.of_nat n) by (apply Z.pow_pos_nonneg; lia).
      rewrite Z.rem_mul_r by lia. lia. }
    rewrite Hq, Hm.
    destruct (p || negb (v mod 10 =? 0)) eqn:Ep.
    + destruct (st_push buf l suf (v mod 10 + 48) Hst ltac:(lia)) as (b' & l' & Ebp & Hst'). rewrite Ebp.
      destruct (IH b' l' _ (v / 10) true Hst' ltac:(lia) ltac:(cbn [length]; lia))
        as (b2 & l2 & fs & p' & E2 & Hst2 & Hd & Hlen & Hval & Ht & Hf & _).
      destruct (Ht eq_refl) as [-> Hlen'].
      exists b2, l2, (fs ++ [v mod 10 + 48]), true. split; [exact E2|]. split; [rewrite <- app_assoc; exact Hst2|].
      split; [apply Forall_app; split; [assumption | constructor; [unfold digit; lia | constructor]]|].
      rewrite app_length. cbn [length]. split; [lia|].
      split.
      { rewrite Hval, Hlen'. replace (n - n)%nat with 0%nat by lia. replace (S n - (n + 1))%nat with 0%nat by lia.
        change (10 ^ Z.of_nat 0) with 1. rewrite dval_app. cbn [length]. change (10 ^ Z.of_nat 1) with 10.
        unfold dval at 3. cbn [fold_left]. lia. }
      split; [intros; split; [reflexivity | lia]|]. split; [discriminate|]. intros -> _. exists fs, (v mod 10 + 48). split; [reflexivity|]. cbn [orb] in Ep. lia.
    + assert (p = false) by (destruct p; [discriminate | reflexivity]). subst p. cbn [orb] in Ep.
      assert (H0 : v mod 10 = 0) by lia.
      destruct (IH buf l suf (v / 10) false Hst ltac:(lia) ltac:(lia))
        as (b2 & l2 & fs & p' & E2 & Hst2 & Hd & Hlen & Hval & _ & Hf & Ht).
      exists b2, l2, fs, p'. split; [exact E2|]. split; [exact Hst2|]. split; [exact Hd|]. split; [lia|].
      split.
      { rewrite Hval, H0. replace (S n - length fs)%nat with (S (n - length fs)) by lia.
        rewrite Nat2Z.inj_succ, Z.pow_succ_r by lia. lia. }
      split; [discriminate|]. split; [exact Hf | exact Ht].
Qed.

(** fraction text: empty or ".ddd" *)
Definition frac_text (f : bytes) : bytes := match f with [] => [] | _ => 46 :: f end.

Lemma fmt_frac_spec prec buf l suf v : st buf l suf -> 0 <= v -> (length suf + prec + 1 <= 32)%nat ->
  exists buf' l' f, fmt_frac buf l v prec = Some (buf', l', v / 10 ^ Z.of_nat prec) /\
    st buf' l' (frac_text f ++ suf) /\ Forall digit f /\ (length f <= prec)%nat /\
    v mod 10 ^ Z.of_nat prec = dval f * 10 ^ Z.of_nat (prec - length f) /\ (f = [] \/ exists g c, f = g ++ [c] /\ c <> 48).
Proof.
  intros Hst Hv Hl. unfold fmt_frac.
  destruct (fmt_frac_loop_spec prec buf l suf v false Hst Hv ltac:(lia))
    as (b2 & l2 & fs & p' & -> & Hst2 & Hd & Hlen & Hval & _ & Hf & Ht).
  destruct p'.
  - specialize (Ht eq_refl eq_refl).
    destruct (st_push b2 l2 _ 46 Hst2) as (b3 & l3 & -> & Hst3); [rewrite app_length; lia|].
    exists b3, l3, fs. split; [reflexivity|]. split; [destruct Ht as (g & c & -> & _); destruct g; exact Hst3|]. repeat (split; [assumption|]). right. exact Ht.
  - rewrite (Hf eq_refl) in *. exists b2, l2, []. auto 8.
Qed.

(** One printed term. *)
Lemma term_frac a f name prec v : digits1 a -> Forall digit f -> (length f <= prec)%nat ->
  dunit name (10 ^ Z.of_nat prec) -> 0 <= v ->
  dval a = v / 10 ^ Z.of_nat prec -> v mod 10 ^ Z.of_nat prec = dval f * 10 ^ Z.of_nat (prec - length f) ->
  dterm (a ++ frac_text f ++ name) v.
Proof.
  intros Ha Hf Hl Hu Hv Hq Hm. exists a, f, name, (10 ^ Z.of_nat prec).
  split; [exact Ha|]. split; [exact Hu|]. split.
  - destruct f as [|x f]; [left; auto | right]. split; [split; [discriminate | assumption] | reflexivity].
  - rewrite dval_app, Hq.
    assert (P : 0 < 10 ^ Z.of_nat prec) by (apply Z.pow_pos_nonneg; lia).
    assert (E : 10 ^ Z.of_nat (prec - length f) * 10 ^ Z.of_nat (length f) = 10 ^ Z.of_nat prec).
    { rewrite <- Z.pow_add_r by lia. f_equal. lia. }
    rewrite (Z.div_mod v (10 ^ Z.of_nat prec)) at 1 by lia. rewrite Hm, <- E. ring.
Qed.

Lemma term_int a name u : digits1 a -> dunit name u -> dterm (a ++ name) (dval a * u).
Proof.
  intros Ha Hu. exists a, [], name, u. split; [exact Ha|]. split; [exact Hu|]. split; [left; auto|].
  rewrite app_nil_r. cbn [length]. change (10 ^ Z.of_nat 0) with 1. ring.
Qed.

(** The two-byte micro sign. *)
Lemma st_micro buf l suf : st buf l suf -> (2 <= l)%nat ->
  exists l2 b', l = S (S l2) /\ copy_micro buf l2 = Some b' /\ st b' l2 (0xC2 :: 0xB5 :: suf).
Proof.
  intros (H1 & H2 & H3) Hl. destruct l as [|[|l2]]; try lia. unfold copy_micro.
  exists l2. eexists. split; [reflexivity|].
  rewrite bset_ok by lia. rewrite bset_ok by (rewrite set_nth_length; lia). split; [reflexivity|]. split; [rewrite !set_nth_length; assumption|]. split; [lia|].
  rewrite (set_nth_app (set_nth buf l2 0xC2)) by (rewrite set_nth_length; lia).
  assert (F : firstn (S l2) (set_nth buf l2 0xC2) = firstn l2 buf ++ [0xC2]).
  { rewrite set_nth_app by lia. rewrite firstn_app, firstn_firstn, firstn_length.
    replace (Nat.min (S l2) l2) with l2 by lia. replace (S l2 - Nat.min l2 (length buf))%nat with 1%nat by lia. reflexivity. }
  rewrite F. rewrite <- app_assoc.
  assert (L : length (firstn l2 buf) = l2) by (rewrite firstn_length; lia).
  rewrite <- L at 1. rewrite skipn_app_exact. cbn [app]. do 2 f_equal.
  rewrite set_nth_app by lia. rewrite skipn_app, firstn_length. rewrite skipn_all2 by (rewrite firstn_length; lia). cbn [app].
  replace (S (S l2) - Nat.min l2 (length buf))%nat with 2%nat by lia.
  change (skipn 2 (0xC2 :: skipn (S l2) buf)) with (skipn 1 (skipn (S l2) buf)). rewrite skipn_skipn. exact H3.
Qed.

Definition sign_text (n : bool) (s : bytes) : bytes := if n then 45 :: s else s.

Lemma dur_sign_ok dst n b l suf : st b l suf -> (length suf < 32)%nat ->
  dur_sign dst n (Some (b, l)) = Some (dst ++ sign_text n suf).
Proof.
  intros Hst Hl. unfold dur_sign. destruct n.
  - destruct (st_push b l suf 45 Hst Hl) as (b' & l' & -> & (_ & _ & Hs)). rewrite Hs. reflexivity.
  - destruct Hst as (_ & _ & ->). reflexivity.
Qed.

Lemma decimal_text prec v a f : int_lit a (v / 10 ^ Z.of_nat prec) -> Forall digit f -> (length f <= prec)%nat -> v mod 10 ^ Z.of_nat prec = dval f * 10 ^ Z.of_nat (prec - length f) ->
  f = [] \/ (exists g c, f = g ++ [c] /\ c <> 48) -> decimal prec v (a ++ frac_text f).
Proof.
  intros A F L V [-> |N]; exists a.
  - exists []. split; [exact A|]. split; [left; split; [reflexivity | apply app_nil_r]|]. auto.
  - exists f. split; [exact A|]. split; [right; split; [exact N|]; destruct N as (g & c & -> & _); destruct g; reflexivity|]. auto.
Qed.

Lemma append_duration_exact dst d : - 2 ^ 63 <= d < 2 ^ 63 ->
  exists s, append_duration dst d = Some (dst ++ s) /\ dur_text s d /\ dur_spelled d s.
Proof.
  intros Hd. unfold append_duration.
  set (u := if d <? 0 then wrap_u 64 (- wrap_u 64 d) else wrap_u 64 d).
  assert (Hu : u = Z.abs d).
  { unfold u, wrap_u. destruct (d <? 0) eqn:E.
    - assert (d mod 2 ^ 64 = d + 2 ^ 64) as ->.
      { symmetry. apply Z.mod_unique_pos with (q := -1); lia. }
      replace (- (d + 2 ^ 64)) with (- d + (-1) * 2 ^ 64) by ring.
      rewrite Z_mod_plus_full, Z.mod_small by lia. lia.
    - rewrite Z.mod_small by lia. lia. }
  clearbody u.
  assert (Hst0 : st (repeat 0 32) 32 []) by (repeat split; vm_compute; reflexivity || lia).
  assert (Finish : forall s, dterms s u -> dur_abs_text u s -> exists s', Some (dst ++ sign_text (d <? 0) s) = Some (dst ++ s') /\ dur_text s' d /\ dur_spelled d s').
  { intros s Hs Ha. exists (sign_text (d <? 0) s). split; [reflexivity|]. unfold sign_text.
    destruct (d <? 0) eqn:E; (split; [first [replace d with (- u) by lia; constructor; exact Hs | replace d with u by lia; constructor; exact Hs]|]).
    - apply dp_neg; [lia|]. replace (- d) with u by lia. exact Ha.
    - apply dp_pos; [lia|]. replace d with u by lia. exact Ha. }
  destruct (u <? second) eqn:Es.
  - destruct (st_push (repeat 0 32) 32 [] 115 Hst0 ltac:(cbn; lia)) as (b1 & l1 & -> & Hst1).
    destruct (u =? 0) eqn:E0.
    { exists [48; 115]. split; [reflexivity|]. split; [|apply dp_pos; [lia|]; apply da_zero; lia]. replace d with 0 by lia. constructor. constructor.
      change 0 with (dval [48] * 1000000000). apply (term_int [48] (lit "s")); [|constructor].
      split; [discriminate | constructor; [unfold digit; lia | constructor]]. }
    assert (Pre : exists b2 l2 prec name k, 
       (if u <? microsecond then do (b', l') <- bpush b1 l1 110; Some (b', l', 0%nat)
           else if u <? millisecond then
             match l1 with
             | S (S l2) => do b' <- copy_micro b1 l2; Some (b', l2, 3%nat)
             | _ => None
             end
           else do (b', l') <- bpush b1 l1 109; Some (b', l', 6%nat)) = Some (b2, l2, prec) /\
       st b2 l2 name /\ (length name <= 3)%nat /\ dunit name (10 ^ Z.of_nat prec) /\
       k = 3%nat /\ (prec <= 6)%nat /\ u < 10 ^ Z.of_nat prec * 1000 /\ (forall x, decimal prec u x -> dur_abs_text u (x ++ name))).
    { unfold microsecond, millisecond, second in *. destruct (u <? 1000) eqn:E1.
      - destruct (st_push b1 l1 [115] 110 Hst1 ltac:(cbn; lia)) as (b2 & l2 & -> & Hst2).
        exists b2, l2, 0%nat, [110; 115], 3%nat. split; [reflexivity|]. split; [exact Hst2|]. split; [cbn; lia|].
        split; [apply du_ns|]. split; [reflexivity|]. split; [lia|]. split; [change (10 ^ Z.of_nat 0) with 1; lia|]. intros x Hx. apply da_ns; [lia | exact Hx].
      - destruct (u <? 1000000) eqn:E2.
        + assert (L := st_len _ _ _ Hst1). cbn [length] in L.
          destruct (st_micro b1 l1 [115] Hst1 ltac:(lia)) as (l2 & b2 & -> & -> & Hst2).
          exists b2, l2, 3%nat, [0xC2; 0xB5; 115], 3%nat. split; [reflexivity|]. split; [exact Hst2|]. split; [cbn; lia|].
          split; [apply du_us|]. split; [reflexivity|]. split; [lia|]. split; [change (10 ^ Z.of_nat 3) with 1000; lia|]. intros x Hx. apply da_us; [lia | exact Hx].
        + destruct (st_push b1 l1 [115] 109 Hst1 ltac:(cbn; lia)) as (b2 & l2 & -> & Hst2).
          exists b2, l2, 6%nat, [109; 115], 3%nat. split; [reflexivity|]. split; [exact Hst2|]. split; [cbn; lia|].
          split; [apply du_ms|]. split; [reflexivity|]. split; [lia|]. split; [change (10 ^ Z.of_nat 6) with 1000000; lia|]. intros x Hx. apply da_ms; [lia | exact Hx]. }
    destruct Pre as (b2 & l2 & prec & name & k & -> & Hst2 & Hnl & Hun & -> & Hprec & Hub & Hsp).
    destruct (fmt_frac_spec prec b2 l2 name u Hst2 ltac:(lia) ltac:(lia)) as (b3 & l3 & f & -> & Hst3 & Hf & Hfl & Hfm & Hfz).
    assert (Lf : (length (frac_text f) <= 7)%nat) by (destruct f; cbn [frac_text length] in *; lia).
    destruct (fmt_int_spec 3 b3 l3 _ (u / 10 ^ Z.of_nat prec) Hst3) as (b4 & l4 & ds & -> & Hst4 & Hds & Hdv & Hdl & Hdi).
    { assert (P : 0 < 10 ^ Z.of_nat prec) by (apply Z.pow_pos_nonneg; lia).
      split; [apply Z.div_pos; lia|]. change (10 ^ Z.of_nat 3) with 1000. apply Z.div_lt_upper_bound; lia. }
    { lia. }
    { rewrite app_length. lia. }
    rewrite (dur_sign_ok _ _ _ _ _ Hst4) by (rewrite !app_length; lia).
    apply Finish; [constructor; eapply term_frac; eauto; lia|]. rewrite app_assoc. apply Hsp. apply decimal_text; assumption.
  - destruct (st_push (repeat 0 32) 32 [] 115 Hst0 ltac:(cbn; lia)) as (b1 & l1 & -> & Hst1).
    destruct (fmt_frac_spec 9 b1 l1 [115] u Hst1 ltac:(lia) ltac:(cbn; lia)) as (b2 & l2 & f & -> & Hst2 & Hf & Hfl & Hfm & Hfz).
    assert (Lf : (length (frac_text f) <= 10)%nat) by (destruct f; cbn [frac_text length] in *; lia).
    change (10 ^ Z.of_nat 9) with 1000000000 in *. set (q := u / 1000000000) in *.
    assert (Hq : 0 <= q < 2 ^ 64) by (unfold q; lia).
    destruct (fmt_int_spec 2 b2 l2 _ (q mod 60) Hst2) as (b3 & l3 & ds & -> & Hst3 & Hds & Hdv & Hdl & Hdi);
      [change (10 ^ Z.of_nat 2) with 100; lia | lia | rewrite app_length; cbn [length]; lia |].
    assert (Hterm1 : dterm (ds ++ frac_text f ++ [115]) (u - (q - q mod 60) * 1000000000)).
    { change 115 with 115. change [115] with (lit "s") at 1.
      apply (term_frac ds f (lit "s") 9); auto; change (10 ^ Z.of_nat 9) with 1000000000 in *; [constructor| | |].
      - unfold q; lia.
      - rewrite Hdv. unfold q. lia.
      - rewrite <- Hfm. unfold q. lia. }
    assert (Hdec : decimal 9 (u - (q - q mod 60) * 1000000000) (ds ++ frac_text f)).
    { apply decimal_text; auto; change (10 ^ Z.of_nat 9) with 1000000000.
      - replace ((u - (q - q mod 60) * 1000000000) / 1000000000) with (q mod 60) by (unfold q; lia). exact Hdi.
      - rewrite <- Hfm. unfold q. lia. }
    unfold second in Es.
    assert (L3 := app_length (frac_text f) [115]). cbn [length] in L3.
    destruct (0 <? q / 60) eqn:E1.
    2:{ rewrite (dur_sign_ok _ _ _ _ _ Hst3) by (rewrite !app_length; cbn [length]; lia).
        replace (u - (q - q mod 60) * 1000000000) with u in Hterm1, Hdec by lia. apply Finish; [constructor; exact Hterm1|].
        rewrite app_assoc. apply da_s; [unfold q in *; lia | exact Hdec]. }
    set (q2 := q / 60) in *.
    destruct (st_push b3 l3 _ 109 Hst3) as (b4 & l4 & -> & Hst4); [rewrite !app_length; cbn [length]; lia|].
    destruct (fmt_int_spec 2 b4 l4 _ (q2 mod 60) Hst4) as (b5 & l5 & ds2 & -> & Hst5 & Hds2 & Hdv2 & Hdl2 & Hdi2);
      [change (10 ^ Z.of_nat 2) with 100; lia | lia | cbn [length]; rewrite !app_length; cbn [length]; lia |].
    assert (Hterm2 : dterm (ds2 ++ [109]) (q2 mod 60 * 60000000000)).
    { rewrite <- Hdv2. apply (term_int ds2 (lit "m")); [assumption | constructor]. }
    destruct (0 <? q2 / 60) eqn:E2.
    2:{ rewrite (dur_sign_ok _ _ _ _ _ Hst5) by (rewrite !app_length; cbn [length]; rewrite !app_length; cbn [length]; lia).
        apply Finish; [|replace (ds2 ++ 109 :: ds ++ frac_text f ++ [115]) with (ds2 ++ lit "m" ++ (ds ++ frac_text f) ++ lit "s") by (rewrite <- (app_assoc ds); reflexivity);
          apply (da_m u (q2 mod 60) ds2 (u - (q - q mod 60) * 1000000000)); [unfold q2 in *; lia | exact Hdi2 | unfold q2, q in *; lia | exact Hdec | unfold q2 in *; lia]].
        change (109 :: ds ++ frac_text f ++ [115]) with ([109] ++ ds ++ frac_text f ++ [115]).
        rewrite app_assoc.
        replace u with (q2 mod 60 * 60000000000 + (u - (q - q mod 60) * 1000000000)) by (unfold q2 in *; lia).
        constructor; [exact Hterm2 | constructor; exact Hterm1]. }
    destruct (st_push b5 l5 _ 104 Hst5) as (b6 & l6 & -> & Hst6); [rewrite !app_length; cbn [length]; rewrite !app_length; cbn [length]; lia|].
    destruct (fmt_int_spec 10 b6 l6 _ (q2 / 60) Hst6) as (b7 & l7 & ds3 & -> & Hst7 & Hds3 & Hdv3 & Hdl3 & Hdi3).
    { change (10 ^ Z.of_nat 10) with 10000000000. unfold q2, q. lia. }
    { lia. }
    { cbn [length]. rewrite !app_length. cbn [length]. rewrite !app_length. cbn [length]. lia. }
    rewrite (dur_sign_ok _ _ _ _ _ Hst7).
    2:{ rewrite app_length. cbn [length]. rewrite app_length. cbn [length]. rewrite !app_length. cbn [length]. lia. }
    apply Finish; [|replace (ds3 ++ 104 :: ds2 ++ 109 :: ds ++ frac_text f ++ [115]) with (ds3 ++ lit "h" ++ ds2 ++ lit "m" ++ (ds ++ frac_text f) ++ lit "s") by (rewrite <- (app_assoc ds); reflexivity);
      apply (da_h u (q2 / 60) ds3 (q2 mod 60) ds2 (u - (q - q mod 60) * 1000000000)); [lia | exact Hdi3 | lia | exact Hdi2 | unfold q2, q in *; lia | exact Hdec | unfold q2 in *; lia]].
    assert (Hterm3 : dterm (ds3 ++ [104]) (q2 / 60 * 3600000000000)).
    { rewrite <- Hdv3. apply (term_int ds3 (lit "h")); [assumption | constructor]. }
    change (104 :: ds2 ++ 109 :: ds ++ frac_text f ++ [115]) with ([104] ++ ds2 ++ [109] ++ ds ++ frac_text f ++ [115]).
    rewrite app_assoc, (app_assoc ds2).
    replace u with (q2 / 60 * 3600000000000 + (q2 mod 60 * 60000000000 + (u - (q - q mod 60) * 1000000000))) by (unfold q2 in *; lia).
    constructor; [exact Hterm3|]. constructor; [exact Hterm2 | constructor; exact Hterm1].
Qed.

Lemma append_duration_spec dst d : - 2 ^ 63 <= d < 2 ^ 63 ->
  exists s, append_duration dst d = Some (dst ++ s) /\ dur_text s d.
Proof. intros Hd. destruct (append_duration_exact dst d Hd) as (s & A & B & _). eauto. Qed.

(** ** A duration text has one value *)
Lemma digits_split a1 x1 a2 x2 : Forall digit a1 -> Forall digit a2 ->
  (forall c t, x1 = c :: t -> ~ digit c) -> (forall c t, x2 = c :: t -> ~ digit c) ->
  a1 ++ x1 = a2 ++ x2 -> a1 = a2 /\ x1 = x2.
Proof.
  intros H1; revert a2. induction H1 as [|d a1 Hd H1 IH]; intros a2 H2 N1 N2 E.
  - destruct H2 as [|d2 a2 Hd2 H2]; [auto|]. cbn in E. exfalso. eapply N1; eauto.
  - destruct H2 as [|d2 a2 Hd2 H2]; [cbn in E; exfalso; eapply N2; eauto|].
    cbn in E. injection E as -> E. destruct (IH a2 H2 N1 N2 E) as [-> ->]. auto.
Qed.

Lemma dunit_shape name u : dunit name u -> exists c t, name = c :: t /\ ~ digit c /\ c <> 46.
Proof. intros []; eexists; eexists; (split; [reflexivity|]); vm_compute; intuition discriminate || lia. Qed.

(** What may follow a term: nothing or another term. *)
Definition dstop (s : bytes) : Prop := match s with [] => True | c :: _ => digit c end.

Lemma dunit_prefix n1 u1 n2 u2 r1 r2 : dunit n1 u1 -> dunit n2 u2 -> dstop r1 -> dstop r2 ->
  n1 ++ r1 = n2 ++ r2 -> n1 = n2 /\ u1 = u2 /\ r1 = r2.
Proof.
  intros H1 H2 D1 D2 E.
  destruct H1, H2; cbn in E; inversion E; subst; auto; exfalso; cbn in *; unfold digit in *; lia.
Qed.

Lemma dterm_det s1 v1 r1 s2 v2 r2 : dterm s1 v1 -> dterm s2 v2 -> dstop r1 -> dstop r2 ->
  s1 ++ r1 = s2 ++ r2 -> s1 = s2 /\ v1 = v2 /\ r1 = r2.
Proof.
  intros (a1 & f1 & n1 & u1 & [_ Ha1] & Hu1 & Hs1 & Hv1) (a2 & f2 & n2 & u2 & [_ Ha2] & Hu2 & Hs2 & Hv2) D1 D2 E.
  destruct (dunit_shape n1 u1 Hu1) as (c1 & t1 & En1 & Hc1 & Hd1).
  destruct (dunit_shape n2 u2 Hu2) as (c2 & t2 & En2 & Hc2 & Hd2).
  assert (N46 : ~ digit 46) by (unfold digit; lia).
  assert (Pos : forall f : bytes, 0 < 10 ^ Z.of_nat (length f)) by (intros; apply Z.pow_pos_nonneg; lia).
  assert (G : forall f1 f2, a1 = a2 -> f1 = f2 -> n1 = n2 -> u1 = u2 ->
     v1 * 10 ^ Z.of_nat (length f1) = dval (a1 ++ f1) * u1 -> v2 * 10 ^ Z.of_nat (length f2) = dval (a2 ++ f2) * u2 -> v1 = v2).
  { intros g1 g2 -> -> -> -> E1 E2. rewrite <- E2 in E1. specialize (Pos g2). nia. }
  destruct Hs1 as [[-> ->]|[[_ Hf1] ->]], Hs2 as [[-> ->]|[[_ Hf2] ->]].
  - rewrite <- !app_assoc in E. apply digits_split in E; auto.
    + destruct E as [-> E]. destruct (dunit_prefix _ _ _ _ _ _ Hu1 Hu2 D1 D2 E) as (-> & -> & ->).
      split; [reflexivity|]. split; [eapply (G [] []); eauto | reflexivity].
    + rewrite En1. intros c t Ec. injection Ec as -> _. assumption.
    + rewrite En2. intros c t Ec. injection Ec as -> _. assumption.
  - exfalso. rewrite <- !app_assoc in E. cbn [app] in E. apply digits_split in E; auto.
    + destruct E as [_ E]. rewrite En1 in E. injection E as -> _. lia.
    + rewrite En1. intros c t Ec. injection Ec as -> _. assumption.
    + intros c t Ec. injection Ec as <- _. assumption.
  - exfalso. rewrite <- !app_assoc in E. cbn [app] in E. apply digits_split in E; auto.
    + destruct E as [_ E]. rewrite En2 in E. injection E as <- _. lia.
    + intros c t Ec. injection Ec as <- _. assumption.
    + rewrite En2. intros c t Ec. injection Ec as -> _. assumption.
  - rewrite <- !app_assoc in E. cbn [app] in E. apply digits_split in E; auto.
    2,3: intros c t Ec; injection Ec as <- _; assumption.
    destruct E as [-> E]. injection E as E. rewrite <- !app_assoc in E. apply digits_split in E; auto.
    + destruct E as [-> E]. destruct (dunit_prefix _ _ _ _ _ _ Hu1 Hu2 D1 D2 E) as (-> & -> & ->).
      split; [reflexivity|]. split; [eapply (G f2 f2); eauto | reflexivity].
    + rewrite En1. intros c t Ec. injection Ec as -> _. assumption.
    + rewrite En2. intros c t Ec. injection Ec as -> _. assumption.
Qed.

Lemma dterm_head s v : dterm s v -> exists c t, s = c :: t /\ digit c.
Proof.
  intros (a & f & n & u & [Hne Ha] & _ & Hs & _). destruct Ha as [|d a Hd Ha]; [congruence|].
  destruct Hs as [[_ ->]|[_ ->]]; cbn [app]; eexists; eexists; split; try reflexivity; assumption.
Qed.

Lemma dterms_head s v : dterms s v -> exists c t, s = c :: t /\ digit c.
Proof. intros [s' v' H|s' v' t w H _]; destruct (dterm_head _ _ H) as (c & q & -> & Hc); cbn [app]; eauto. Qed.

Lemma dterms_det s v1 v2 : dterms s v1 -> dterms s v2 -> v1 = v2.
Proof.
  intros H1; revert v2. induction H1 as [s v H|s v t w H H1 IH]; intros v2 H2.
  - inversion H2 as [s' v' H'|s' v' t' w' H' H2' Es Ev]; subst.
    + destruct (dterm_det s v [] s v2 [] H H' I I eq_refl) as (_ & E & _). exact E.
    + exfalso. destruct (dterms_head _ _ H2') as (c & q & -> & Hc).
      destruct (dterm_det _ v [] s' v' (c :: q) H H' I Hc (app_nil_r _)) as (_ & _ & Er). discriminate Er.
  - destruct (dterms_head _ _ H1) as (c & q & Et & Hc).
    assert (D : dstop t) by (rewrite Et; exact Hc).
    remember (s ++ t) as st0 eqn:E0. destruct H2 as [s' v' H'|s' v' t' w' H' H2'].
    + subst s'. exfalso. destruct (dterm_det s v t _ v' [] H H' D I (eq_sym (app_nil_r _))) as (_ & _ & Er).
      rewrite Er in Et. discriminate Et.
    + destruct (dterms_head _ _ H2') as (c' & q' & Et' & Hc').
      assert (D' : dstop t') by (rewrite Et'; exact Hc').
      destruct (dterm_det _ _ _ _ _ _ H H' D D' (eq_sym E0)) as (_ & Ev & Er). rewrite Ev. f_equal.
      apply IH. rewrite Er. exact H2'.
Qed.

Lemma dur_text_det s v1 v2 : dur_text s v1 -> dur_text s v2 -> v1 = v2.
Proof.
  intros [s1 w1 H1|s1 w1 H1] H2; inversion H2 as [s2 w2 H2'|s2 w2 H2']; subst.
  - eapply dterms_det; eauto.
  - destruct (dterms_head _ _ H1) as (c & q & E & Hc). injection E as <- _. unfold digit in Hc. lia.
  - destruct (dterms_head _ _ H2') as (c & q & E & Hc). injection E as <- _. unfold digit in Hc. lia.
  - f_equal. eapply dterms_det; eauto.
Qed.
