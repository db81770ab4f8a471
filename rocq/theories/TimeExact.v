(** Exactly when appendRFC3339Time gives the right date and offset, for the
    years that encodeTime gives it (0 to 9999). *)
From Verif Require Import Base IntModel BufModel JsonSpec CalendarSpec TypesModel OptionsModel DurationModel NumberProof TimeModel IntProof TimeProof TimeTotal.

(** ** The shape of the text, whatever the signs *)
Definition head_text (y m d s : Z) : bytes :=
  let s1 := Z.quot s 10 in let s2 := Z.quot s1 6 in let s3 := Z.quot s2 10 in let s4 := Z.quot s3 6 in let s5 := Z.quot s4 10 in
  dlist 4 y ++ 45 :: dlist 2 m ++ 45 :: dlist 2 d ++
  84 :: [dig (Z.rem s5 10); dig (Z.rem s4 10)] ++ 58 :: [dig (Z.rem s3 6); dig (Z.rem s2 10)] ++ 58 :: [dig (Z.rem s1 6); dig (Z.rem s 10)].

Lemma rfc_head_text sec y m d : rdnToYmd (u32 (Z.quot sec 86400)) = Some (y, m, d) -> 0 <= y -> 0 <= m -> 0 <= d ->
  rfc_head sec = Some ((34 :: head_text y m d (Z.rem sec 86400)) ++ repeat 0 17).
Proof.
  intros E Hy Hm Hd. unfold rfc_head. rewrite E. cbv [bset length Nat.ltb Nat.leb set_nth repeat put_digits Nat.add].
  rewrite !(Z.quot_div_nonneg y 10), !(Z.quot_div_nonneg (y / 10) 10), !(Z.quot_div_nonneg (y / 10 / 10) 10) by lia.
  rewrite (Z.quot_div_nonneg m 10), (Z.quot_div_nonneg d 10) by lia.
  rewrite (dig10 y), (dig10 (y / 10)), (dig10 (y / 10 / 10)), (dig10 (y / 10 / 10 / 10)), (dig10 m), (dig10 (m / 10)), (dig10 d), (dig10 (d / 10)) by lia.
  unfold head_text. cbn [dlist app]. reflexivity.
Qed.

Lemma rdn_nonneg r y m d : rdnToYmd r = Some (y, m, d) -> 0 <= y /\ 0 <= m /\ 0 <= d.
Proof.
  unfold rdnToYmd. intros E. cbv zeta in E. match type of E with match ?x with _ => _ end = _ => destruct x as [a b] end. destruct (b <=? 12); [|discriminate].
  injection E as <- <- <-. unfold u16, wrap_u. repeat split; apply Z.mod_pos_bound; lia.
Qed.

Lemma rfc3339_shape t dst nano sec y m d : 0 <= t_nsec t < 1000000000 -> wrap_i 64 (wrap_i 64 (t_unix t + t_offset t) + epoch) = sec ->
  rdnToYmd (u32 (Z.quot sec 86400)) = Some (y, m, d) ->
  exists sf, appendRFC3339Time t dst nano = Some (dst ++ 34 :: head_text y m d (Z.rem sec 86400) ++ sf ++ zone_text (t_offset t) ++ [34]) /\
    secfrac sf (if nano then t_nsec t else 0).
Proof.
  intros Hns Hsec E. destruct (rdn_nonneg _ _ _ _ E) as (Hy & Hm & Hd). unfold appendRFC3339Time. rewrite Hsec, (rfc_head_text sec y m d E Hy Hm Hd).
  set (pre := 34 :: head_text y m d (Z.rem sec 86400)). destruct (frac_step_ok nano (t_nsec t) pre (repeat 0 17) Hns eq_refl) as (sf & post' & Efr & Hpost & Hsf).
  assert (Hpre : length pre = 20%nat) by reflexivity. exists sf. split; [|exact Hsf]. rewrite <- Hpre, Efr.
  etransitivity; [apply zone_step_any; exact Hpost|]. rewrite <- !app_assoc. reflexivity.
Qed.

(** ** Negative times of day *)
Lemma dig_neg x : - 9 <= x <= 0 -> digit (dig x) -> x = 0.
Proof.
  intros Hx. unfold dig, u8, wrap_u, digit.
  destruct (Z.eq_dec x 0) as [->|N]; [auto|]. assert (C : x = -1 \/ x = -2 \/ x = -3 \/ x = -4 \/ x = -5 \/ x = -6 \/ x = -7 \/ x = -8 \/ x = -9) by lia.
  repeat (destruct C as [-> | C]); [cbn; lia .. | rewrite C; cbn; lia].
Qed.

Lemma time_neg s : - 86400 < s <= 0 ->
  (let s1 := Z.quot s 10 in let s2 := Z.quot s1 6 in let s3 := Z.quot s2 10 in let s4 := Z.quot s3 6 in let s5 := Z.quot s4 10 in
   digit (dig (Z.rem s5 10)) /\ digit (dig (Z.rem s4 10)) /\ digit (dig (Z.rem s3 6)) /\ digit (dig (Z.rem s2 10)) /\ digit (dig (Z.rem s1 6)) /\ digit (dig (Z.rem s 10))) -> s = 0.
Proof.
  intros Hs. cbv zeta.
  assert (Q : forall a b, 0 < b -> a <= 0 -> a = b * Z.quot a b + Z.rem a b /\ Z.quot a b <= 0 /\ - b < Z.rem a b <= 0).
  { intros a b Hb Ha. assert (X := Z.quot_rem' a b). assert (Y := Z.rem_bound_abs a b ltac:(lia)). assert (W := Z.rem_nonpos a b ltac:(lia) ltac:(lia)). repeat split; nia. }
  destruct (Q s 10) as (A1 & A2 & A3); [lia | lia|]. set (s1 := Z.quot s 10) in *. clearbody s1.
  destruct (Q s1 6) as (B1 & B2 & B3); [lia | lia|]. set (s2 := Z.quot s1 6) in *. clearbody s2.
  destruct (Q s2 10) as (C1 & C2 & C3); [lia | lia|]. set (s3 := Z.quot s2 10) in *. clearbody s3.
  destruct (Q s3 6) as (D1 & D2 & D3); [lia | lia|]. set (s4 := Z.quot s3 6) in *. clearbody s4.
  destruct (Q s4 10) as (E1 & E2 & E3); [lia | lia|]. set (s5 := Z.quot s4 10) in *. clearbody s5.
  destruct (Q s5 10) as (F1 & F2 & F3); [lia | lia|].
  intros (G1 & G2 & G3 & G4 & G5 & G6). apply dig_neg in G1, G2, G3, G4, G5, G6; lia.
Qed.

(** ** Large offsets *)
Lemma zone_text_any offset : zoneoff (zone_text offset) (60 * (Z.sgn offset * (Z.abs (Z.quot offset 60) mod 6000))).
Proof.
  unfold zone_text. destruct (offset =? 0) eqn:E.
  - assert (offset = 0) as -> by lia. constructor.
  - assert (Q : Z.quot offset 60 = if offset <? 0 then - (- offset / 60) else offset / 60).
    { destruct (offset <? 0) eqn:En.
      - rewrite <- (Z.opp_involutive offset) at 1. rewrite Z.quot_opp_l, Z.quot_div_nonneg by lia. reflexivity.
      - rewrite Z.quot_div_nonneg by lia. reflexivity. }
    set (q := Z.quot offset 60) in *. clearbody q.
    assert (Hm : Z.abs q mod 6000 = Z.abs q / 60 mod 100 * 60 + Z.abs q mod 60) by (clear; lia).
    destruct (q <? 0) eqn:Eq.
    + replace (60 * (Z.sgn offset * (Z.abs q mod 6000))) with (- (Z.abs q / 60 mod 100 * 3600 + Z.abs q mod 60 * 60)) by (rewrite Hm; replace (Z.sgn offset) with (-1) by (destruct (offset <? 0) eqn:?; lia); lia).
      apply zo_neg; [apply dnum2; lia | apply dnum2; lia | lia].
    + replace (60 * (Z.sgn offset * (Z.abs q mod 6000))) with (Z.abs q / 60 mod 100 * 3600 + Z.abs q mod 60 * 60).
      2: { rewrite Hm. destruct (offset <? 0) eqn:Eo; [assert (q = 0) as -> by lia; replace (Z.abs 0 / 60 mod 100 * 60 + Z.abs 0 mod 60) with 0 by reflexivity; rewrite Z.mul_0_r; reflexivity | replace (Z.sgn offset) with 1 by lia; lia]. }
      apply zo_pos; [apply dnum2; lia | apply dnum2; lia | lia].
Qed.

(** ** The day numbers of year 0, which wrap around in uint32 *)
Lemma rdn_year0 n : - 305 <= n <= 0 -> exists m d, rdnToYmd (u32 n) = Some (0, m, d) /\ is_date n 0 m d.
Proof.
  assert (A : forallb (fun k => match rdnToYmd (u32 (- Z.of_nat k)) with
    | Some (y, m, d) => (y =? 0) && (1 <=? m) && (m <=? 12) && (1 <=? d) && (d <=? month_len 0 m) && (- Z.of_nat k =? rata_die 0 m d) | None => false end) (seq 0 306) = true) by (vm_compute; reflexivity).
  intros Hn. rewrite forallb_forall in A. specialize (A (Z.to_nat (- n)) ltac:(apply in_seq; lia)). replace (- Z.of_nat (Z.to_nat (- n))) with n in A by lia.
  destruct (rdnToYmd (u32 n)) as [[[y m] d]|]; [|discriminate]. exists m, d. unfold is_date. assert (y = 0) as -> by lia. split; [reflexivity|]. lia.
Qed.

Lemma rdn_year0_early n y m d : - 365 <= n < - 305 -> rdnToYmd (u32 n) = Some (y, m, d) -> y mod 10000 <> 0.
Proof.
  assert (A : forallb (fun k => match rdnToYmd (u32 (- 306 - Z.of_nat k)) with Some (y, _, _) => negb (y mod 10000 =? 0) | None => false end) (seq 0 60) = true) by (vm_compute; reflexivity).
  intros Hn E. rewrite forallb_forall in A. specialize (A (Z.to_nat (- 306 - n)) ltac:(apply in_seq; lia)). replace (- 306 - Z.of_nat (Z.to_nat (- 306 - n))) with n in A by lia.
  rewrite E in A. lia.
Qed.

Lemma dlist4 y : 0 <= y -> dval (dlist 4 y) = y mod 10000.
Proof. intros Hy. cbn [dlist app]. unfold dval. cbn [fold_left]. lia. Qed.
