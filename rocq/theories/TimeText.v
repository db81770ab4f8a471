(** The exact RFC 3339 text of a time. *)
From Verif Require Import Base JsonSpec NumberProof IntModel IntProof OptionsModel TimeModel CalendarSpec TimeProof Properties_Time.

(** The zone: Z for UTC, otherwise a sign, hours and minutes; seconds of the
    offset are left out, and with them the sign of an offset below a minute. *)
Inductive zone_spelled (off : Z) : bytes -> Prop :=
| zs_utc : off = 0 -> zone_spelled off [90]
| zs_east h m sh sm : off <> 0 -> - 60 < off -> dnum 2 h sh -> dnum 2 m sm -> m < 60 -> 60 * h + m = Z.quot off 60 -> zone_spelled off (43 :: sh ++ 58 :: sm)
| zs_west h m sh sm : off <= - 60 -> dnum 2 h sh -> dnum 2 m sm -> m < 60 -> 60 * h + m = - Z.quot off 60 -> zone_spelled off (45 :: sh ++ 58 :: sm).

(** "2006-01-02T15:04:05.999999999Z07:00", the fraction without trailing zeros,
    or without the fraction. *)
Definition time_text (g : gtime) (nano : bool) (out : bytes) : Prop :=
  exists y mo d hh mi ss sy smo sd sh smi sss sf sz, civil (t_unix g + t_offset g) y mo d hh mi ss /\
    dnum 4 y sy /\ dnum 2 mo smo /\ dnum 2 d sd /\ dnum 2 hh sh /\ dnum 2 mi smi /\ dnum 2 ss sss /\
    secfrac sf (if nano then t_nsec g else 0) /\ zone_spelled (t_offset g) sz /\
    out = 34 :: sy ++ 45 :: smo ++ 45 :: sd ++ 84 :: sh ++ 58 :: smi ++ 58 :: sss ++ sf ++ sz ++ [34].

(** ** It is functional *)
Lemma dval_split l : forall c, dval (l ++ [c]) = 10 * dval l + (c - 48).
Proof. intros c. rewrite dval_app. cbn. lia. Qed.
Lemma dnum_fun k n s s' : dnum k n s -> dnum k n s' -> s = s'.
Proof.
  intros (L & D & V) (L' & D' & V'). assert (G : forall l l', length l = length l' -> Forall digit l -> Forall digit l' -> dval l = dval l' -> l = l').
  { induction l as [|a l IH] using rev_ind; intros l' Hl F F' E; [destruct l'; [reflexivity | discriminate]|].
    destruct l' as [|b l' _] using rev_ind; [rewrite app_length in Hl; cbn in Hl; lia|]. rewrite !app_length in Hl. cbn [length] in Hl. rewrite !dval_split in E.
    apply Forall_app in F. destruct F as [F Fa]. apply Forall_app in F'. destruct F' as [F' Fb]. inversion Fa; inversion Fb; subst. unfold digit in *.
    assert (a = b) by lia. subst. f_equal. apply IH; auto; lia. }
  apply G; auto; congruence.
Qed.
Lemma zeros_strip l c l' c' j k : c <> 48 -> c' <> 48 -> (l ++ [c]) ++ repeat 48 j = (l' ++ [c']) ++ repeat 48 k -> l ++ [c] = l' ++ [c'].
Proof.
  intros Nc Nc'. revert k. induction j as [|j IH]; intros k E.
  - destruct k as [|k]; [rewrite !app_nil_r in E; exact E|]. exfalso. rewrite <- (Nat.add_1_r k), repeat_app, app_assoc, app_nil_r in E. apply app_inj_tail in E. destruct E as [_ E]. cbn in E. congruence.
  - rewrite <- (Nat.add_1_r j), repeat_app, app_assoc in E. destruct k as [|k].
    + exfalso. rewrite app_nil_r in E. apply app_inj_tail in E. destruct E as [_ E]. cbn in E. congruence.
    + rewrite <- (Nat.add_1_r k), repeat_app, app_assoc in E. apply app_inj_tail in E. destruct E as [E _]. eapply IH, E.
Qed.
Lemma dval_digits_nonneg l : Forall digit l -> 0 <= dval l.
Proof. induction l as [|a l IH] using rev_ind; intros F; [cbn; lia|]. rewrite dval_split. apply Forall_app in F. destruct F as [F Fa]. inversion Fa; subst. specialize (IH F). unfold digit in *. lia. Qed.
Lemma secfrac_fun s s' n : secfrac s n -> secfrac s' n -> s = s'.
Proof.
  intros A B. destruct A as [|f c F N L]; inversion B as [E1 E2|f' c' F' N' L' E1 E2]; subst.
  - reflexivity.
  - exfalso. assert (0 < dval (f' ++ [c'])) by (rewrite dval_split; apply Forall_app in F'; destruct F' as [F' Fa]; inversion Fa; subst; assert (X := dval_digits_nonneg f' F'); unfold digit in *; lia).
    assert (0 < 10 ^ Z.of_nat (9 - length (f' ++ [c']))) by (apply Z.pow_pos_nonneg; lia). nia.
  - exfalso. assert (0 < dval (f ++ [c])) by (rewrite dval_split; apply Forall_app in F; destruct F as [F Fa]; inversion Fa; subst; assert (X := dval_digits_nonneg f F); unfold digit in *; lia).
    assert (0 < 10 ^ Z.of_nat (9 - length (f ++ [c]))) by (apply Z.pow_pos_nonneg; lia). nia.
  - f_equal. rewrite <- !dval_zeros in E2.
    assert (Z48 : forall k, Forall digit (repeat 48 k)) by (intros k; apply Forall_forall; intros x Hx; apply repeat_spec in Hx; subst; unfold digit; lia).
    assert (X : (f ++ [c]) ++ repeat 48 (9 - length (f ++ [c])) = (f' ++ [c']) ++ repeat 48 (9 - length (f' ++ [c']))).
    { apply (dnum_fun 9 (dval ((f ++ [c]) ++ repeat 48 (9 - length (f ++ [c]))))).
      - split; [rewrite app_length, repeat_length; lia|]. split; [apply Forall_app; auto | reflexivity].
      - split; [rewrite app_length, repeat_length; lia|]. split; [apply Forall_app; auto | first [exact E2 | symmetry; exact E2]]. }
    eapply zeros_strip; eauto.
Qed.
Lemma zone_spelled_fun off s s' : zone_spelled off s -> zone_spelled off s' -> s = s'.
Proof.
  assert (R : forall h sh, dnum 2 h sh -> 0 <= h) by (intros h sh (_ & D & <-); apply dval_digits_nonneg, D).
  intros A B. destruct A as [E|h m sh sm E1 E2 H1 M1 Lm V|h m sh sm E2 H1 M1 Lm V]; inversion B as [E'|h' m' sh' sm' F1 F2 H2 M2 Lm' V'|h' m' sh' sm' F2 H2 M2 Lm' V']; subst; try lia; try reflexivity.
  - assert (P1 := R _ _ H1). assert (P2 := R _ _ H2). assert (P3 := R _ _ M1). assert (P4 := R _ _ M2). assert (h' = h) by lia. assert (m' = m) by lia. subst.
    rewrite (dnum_fun _ _ _ _ H1 H2), (dnum_fun _ _ _ _ M1 M2). reflexivity.
  - assert (P1 := R _ _ H1). assert (P2 := R _ _ H2). assert (P3 := R _ _ M1). assert (P4 := R _ _ M2). assert (h' = h) by lia. assert (m' = m) by lia. subst.
    rewrite (dnum_fun _ _ _ _ H1 H2), (dnum_fun _ _ _ _ M1 M2). reflexivity.
Qed.
Theorem time_text_fun g nano out out' : time_text g nano out -> time_text g nano out' -> out = out'.
Proof.
  intros (y & mo & d & hh & mi & ss & sy & smo & sd & sh & smi & sss & sf & sz & C & D1 & D2 & D3 & D4 & D5 & D6 & D7 & D8 & ->)
    (y' & mo' & d' & hh' & mi' & ss' & sy' & smo' & sd' & sh' & smi' & sss' & sf' & sz' & C' & D1' & D2' & D3' & D4' & D5' & D6' & D7' & D8' & ->).
  destruct (civil_unique _ _ _ _ _ _ _ _ _ _ _ _ _ C C') as (-> & -> & -> & -> & -> & ->).
  rewrite (dnum_fun _ _ _ _ D1 D1'), (dnum_fun _ _ _ _ D2 D2'), (dnum_fun _ _ _ _ D3 D3'), (dnum_fun _ _ _ _ D4 D4'), (dnum_fun _ _ _ _ D5 D5'), (dnum_fun _ _ _ _ D6 D6'),
    (secfrac_fun _ _ _ D7 D7'), (zone_spelled_fun _ _ _ D8 D8'). reflexivity.
Qed.

(** ** The encoder writes it *)
Lemma zone_text_spelled off : Z.abs off < 360000 -> zone_spelled off (zone_text off).
Proof.
  intros H. unfold zone_text. destruct (off =? 0) eqn:E; [apply zs_utc; lia|].
  assert (Q : Z.quot off 60 = if off <? 0 then - (- off / 60) else off / 60).
  { destruct (off <? 0) eqn:En; [|rewrite Z.quot_div_nonneg by lia; reflexivity]. rewrite <- (Z.opp_involutive off) at 1. rewrite Z.quot_opp_l, Z.quot_div_nonneg by lia. reflexivity. }
  destruct (Z.quot off 60 <? 0) eqn:Eq.
  - apply (zs_west off (Z.abs (Z.quot off 60) / 60) (Z.abs (Z.quot off 60) mod 60) [48 + Z.abs (Z.quot off 60) / 60 / 10 mod 10; 48 + (Z.abs (Z.quot off 60) / 60) mod 10] [48 + (Z.abs (Z.quot off 60) / 10) mod 6; 48 + Z.abs (Z.quot off 60) mod 10]);
      set (q := Z.quot off 60) in *; clearbody q; assert (Hq : Z.abs q < 6000) by (destruct (off <? 0) eqn:?; lia); [destruct (off <? 0) eqn:?; lia | apply dnum2; lia | apply dnum2; lia | lia | lia].
  - apply (zs_east off (Z.abs (Z.quot off 60) / 60) (Z.abs (Z.quot off 60) mod 60) [48 + Z.abs (Z.quot off 60) / 60 / 10 mod 10; 48 + (Z.abs (Z.quot off 60) / 60) mod 10] [48 + (Z.abs (Z.quot off 60) / 10) mod 6; 48 + Z.abs (Z.quot off 60) mod 10]);
      set (q := Z.quot off 60) in *; clearbody q; assert (Hq : Z.abs q < 6000) by (destruct (off <? 0) eqn:?; lia); [lia | destruct (off <? 0) eqn:?; lia | apply dnum2; lia | apply dnum2; lia | lia | lia].
Qed.
(** The zone is the only part of a date-time that has several spellings. *)
Lemma zone_suffix sz z p q off : zoneoff sz z -> p ++ sz = q ++ zone_text off -> sz = zone_text off.
Proof.
  intros Hz E. assert (L : forall x y : bytes, length x = length y -> p ++ x = q ++ y -> x = y).
  { intros x y Hl Hx. assert (Hp : length p = length q) by (apply (f_equal (@length Z)) in Hx; rewrite !app_length in Hx; lia).
    apply (f_equal (skipn (length p))) in Hx. rewrite Hp in Hx at 2. rewrite !skipn_app, !skipn_all, !Nat.sub_diag in Hx. exact Hx. }
  assert (Zt : zone_text off = [90] \/ exists c, 48 <= c <= 57 /\ exists l, zone_text off = l ++ [c] /\ length l = 5%nat).
  { unfold zone_text. destruct (off =? 0); [left; reflexivity|]. right. eexists. split; [|eexists [_; _; _; _; _]; split; reflexivity]. lia. }
  destruct Hz as [|h m sh sm H1 M1 _|h m sh sm H1 M1 _].
  - destruct Zt as [->|(c & Hc & l & El & _)]; [reflexivity|]. exfalso. rewrite El, app_assoc in E. apply app_inj_tail in E. lia.
  - destruct M1 as (Lm & Dm & _). destruct H1 as (Lh & _). destruct sm as [|a [|b [|? ?]]]; try discriminate. destruct sh as [|x [|y [|? ?]]]; try discriminate. cbn [app] in *. destruct Zt as [Zt|(c & Hc & l & El & Ll)].
    + exfalso. rewrite Zt in E. change (43 :: x :: y :: 58 :: a :: b :: []) with ([43; x; y; 58; a] ++ [b]) in E. rewrite app_assoc in E. apply app_inj_tail in E. destruct E as [_ E]. subst. inversion Dm as [|? ? ? D2]; inversion D2; subst; unfold digit in *; lia.
    + apply L; [|exact E]. rewrite El, app_length, Ll. reflexivity.
  - destruct M1 as (Lm & Dm & _). destruct H1 as (Lh & _). destruct sm as [|a [|b [|? ?]]]; try discriminate. destruct sh as [|x [|y [|? ?]]]; try discriminate. cbn [app] in *. destruct Zt as [Zt|(c & Hc & l & El & Ll)].
    + exfalso. rewrite Zt in E. change (45 :: x :: y :: 58 :: a :: b :: []) with ([45; x; y; 58; a] ++ [b]) in E. rewrite app_assoc in E. apply app_inj_tail in E. destruct E as [_ E]. subst. inversion Dm as [|? ? ? D2]; inversion D2; subst; unfold digit in *; lia.
    + apply L; [|exact E]. rewrite El, app_length, Ll. reflexivity.
Qed.
Lemma append_time_text g nano : gtime_ok g -> 1 <= time_year g <= 9999 -> Z.abs (t_offset g) < 360000 -> exists out, appendRFC3339Time g [] nano = Some out /\ time_text g nano out.
Proof.
  intros Hg Hy Hz. destruct (rfc3339_correct_zone g [] nano Hg Hy Hz) as (s & y & mo & d & hh & mi & ss & Es & (sy & smo & sd & sh & smi & ss' & sf & sz & D1 & D2 & D3 & D4 & D5 & D6 & D7 & D8 & E) & C & (p & Ep)).
  exists (34 :: s ++ [34]). split; [exact Es|]. exists y, mo, d, hh, mi, ss, sy, smo, sd, sh, smi, ss', sf, sz. repeat (split; [assumption|]). split.
  - assert (X : sz = zone_text (t_offset g)).
    { eapply (zone_suffix sz _ (sy ++ 45 :: smo ++ 45 :: sd ++ 84 :: sh ++ 58 :: smi ++ 58 :: ss' ++ sf) p); [exact D8|]. rewrite <- Ep, E. repeat (rewrite <- !app_assoc; cbn [app]). reflexivity. }
    rewrite X. apply zone_text_spelled, Hz.
  - rewrite E. repeat (rewrite <- !app_assoc; cbn [app]). reflexivity.
Qed.

(** A quote, characters that need no escape in JSON, a quote. *)
Lemma time_text_plain g nano out : time_text g nano out -> exists s, out = [34] ++ s ++ [34] /\ Forall (fun c => 43 <= c <= 90 /\ c <> 60 /\ c <> 62) s.
Proof.
  intros (y & mo & d & hh & mi & ss & sy & smo & sd & sh & smi & sss & sf & sz & _ & Dy & Dmo & Dd & Dh & Dmi & Ds & Sf & Sz & ->).
  assert (D : forall k n s, dnum k n s -> Forall (fun c => 43 <= c <= 90 /\ c <> 60 /\ c <> 62) s) by (intros k n s (_ & D & _); eapply Forall_impl; [|exact D]; unfold digit; intros; lia).
  exists (sy ++ 45 :: smo ++ 45 :: sd ++ 84 :: sh ++ 58 :: smi ++ 58 :: sss ++ sf ++ sz). split; [rewrite <- ?app_assoc; cbn [app]; repeat (f_equal; rewrite <- ?app_assoc; cbn [app])|].
  repeat (apply Forall_app; split); try (eapply D; eassumption); repeat (constructor; [lia|]; repeat (apply Forall_app; split); try (eapply D; eassumption)).
  - destruct Sf as [|f c F _ _]; constructor; [lia|]. eapply Forall_impl; [|exact F]. unfold digit. intros; lia.
  - destruct Sz; constructor; try lia; try constructor; apply Forall_app; (split; [eapply D; eassumption|]); constructor; [lia | eapply D; eassumption | lia | eapply D; eassumption].
Qed.
