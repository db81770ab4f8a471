(** Byte arrays of one goroutine: what appending to a slice keeps. *)
From Coq Require Import Permutation.
From Verif Require Import Base IntModel JsonSpec OptionsModel EscapeModel TypesModel TypesFacts TagsModel TimeModel FloatModel LeafModel Base64Model MemModel FieldsModel InstrModel ExecModel ConcModel ConcLogic.

(** All arrays are as they were, but for the bytes after the end of [s]. *)
Definition pres (L L' : lheap) (s : slice) : Prop :=
  forall a c, L a = Some c ->
    (a <> s_arr s -> L' a = Some c) /\
    (a = s_arr s -> exists c', L' a = Some c' /\ length c' = length c /\ firstn (s_len s) c' = firstn (s_len s) c).
(** ... and [s'] continues [s]. *)
Definition ext (L : lheap) (s : slice) (L' : lheap) (s' : slice) : Prop :=
  pres L L' s /\ (s_arr s' = s_arr s \/ L (s_arr s') = None) /\ (s_len s <= s_len s')%nat.
(** Only new arrays. *)
Definition same (L L' : lheap) : Prop := forall a c, L a = Some c -> L' a = Some c.

Lemma same_refl L : same L L. Proof. intros a c Hc. exact Hc. Qed.
Lemma same_trans L1 L2 L3 : same L1 L2 -> same L2 L3 -> same L1 L3. Proof. intros A B a c Hc. auto. Qed.
Lemma same_none L L' a : same L L' -> L' a = None -> L a = None.
Proof. intros Hs Hn. destruct (L a) as [c|] eqn:E; [|reflexivity]. rewrite (Hs _ _ E) in Hn. discriminate. Qed.
Lemma same_set L a c : L a = None -> same L (lset L a c).
Proof. intros Hn x y Hx. rewrite lset_other; [exact Hx|]. congruence. Qed.

Lemma pres_refl L s : pres L L s.
Proof. intros a c Hc. split; [auto|]. intros _. exists c. auto. Qed.
Lemma pres_same L L' s : same L L' -> pres L L' s.
Proof. intros Hs a c Hc. split; [auto|]. intros _. exists c. auto. Qed.
Lemma pres_none L L' s a : pres L L' s -> L' a = None -> L a = None.
Proof.
  intros Hp Hn. destruct (L a) as [c|] eqn:E; [|reflexivity]. destruct (Hp _ _ E) as [A B]. destruct (Nat.eq_dec a (s_arr s)) as [->|Hne].
  - destruct (B eq_refl) as (c' & X & _). congruence.
  - rewrite (A Hne) in Hn. discriminate.
Qed.
Lemma pres_fresh L L' s : L (s_arr s) = None -> pres L L' s -> same L L'.
Proof. intros Hn Hp a c Hc. apply Hp; [exact Hc|]. congruence. Qed.

Lemma ext_refl L s : ext L s L s.
Proof. split; [apply pres_refl|]. split; [left; reflexivity | lia]. Qed.
Lemma ext_pres L s L1 s1 L2 : ext L s L1 s1 -> pres L1 L2 s1 -> pres L L2 s.
Proof.
  intros (P & A & N) Q a c Hc. destruct (P a c Hc) as [P1 P2]. split.
  - intros Hne. apply Q; [auto|]. destruct A as [A|A]; congruence.
  - intros ->. destruct (P2 eq_refl) as (c1 & X1 & X2 & X3). destruct (Q _ _ X1) as [Q1 Q2]. destruct (Nat.eq_dec (s_arr s) (s_arr s1)) as [Es|Hne].
    + destruct (Q2 Es) as (c2 & Y1 & Y2 & Y3). exists c2. split; [exact Y1|]. split; [lia|]. rewrite <- X3.
      apply (f_equal (firstn (s_len s))) in Y3. rewrite !firstn_firstn in Y3. rewrite !Nat.min_l in Y3 by lia. exact Y3.
    + exists c1. auto.
Qed.
Lemma ext_trans L s L1 s1 L2 s2 : ext L s L1 s1 -> ext L1 s1 L2 s2 -> ext L s L2 s2.
Proof.
  intros X Y. split; [eapply ext_pres; [exact X | apply Y]|]. destruct X as (P & A & N), Y as (Q & B & M). split; [|lia].
  destruct B as [B|B]; [rewrite B; exact A | right; eapply pres_none; eauto].
Qed.
Lemma ext_cut L s L' s' n : ext L s L' s' -> (s_len s <= n)%nat -> ext L s L' (mkSl (s_arr s') n).
Proof. intros (P & A & _) Hn. split; [exact P|]. split; [exact A | exact Hn]. Qed.
Lemma same_ext L L1 s L2 s2 : same L L1 -> ext L1 s L2 s2 -> ext L s L2 s2.
Proof.
  intros Hs (P & A & N). split; [|split; [destruct A as [A|A]; [left; exact A | right; eapply same_none; eauto] | exact N]]. intros a c Hc. apply P. auto.
Qed.
Lemma same_pres L L1 s L2 : same L L1 -> pres L1 L2 s -> pres L L2 s.
Proof. intros Hs P a c Hc. apply P. auto. Qed.
Lemma ext_del L s L' s' a : ext L s L' s' -> L a = None -> ext L s (ldel L' a) s'.
Proof.
  intros (P & A & N) Hn. split; [|auto]. intros x c Hc. assert (x <> a) by congruence. rewrite ldel_other by assumption. apply P. exact Hc.
Qed.
Lemma pres_del L s L' a : pres L L' s -> L a = None -> pres L (ldel L' a) s.
Proof. intros P Hn x c Hc. assert (x <> a) by congruence. rewrite ldel_other by assumption. apply P. exact Hc. Qed.

Lemma holds_owned L s b : holds L s b -> owned L s.
Proof. intros (Hl & r & Hr). exists (b ++ r). split; [exact Hr|]. rewrite app_length. lia. Qed.
Lemma holds_same L L' s b : same L L' -> holds L s b -> holds L' s b.
Proof. intros Hs (Hl & r & Hr). split; [exact Hl|]. exists r. auto. Qed.
Lemma holds_pres L L' s b : pres L L' s -> holds L s b -> holds L' s b.
Proof.
  intros P (Hl & r & Hr). split; [exact Hl|]. destruct (P _ _ Hr) as [_ P2]. destruct (P2 eq_refl) as (c' & A & B & C).
  rewrite Hl, firstn_app, Nat.sub_diag, firstn_O, app_nil_r, firstn_all in C. exists (skipn (length b) c'). rewrite A. f_equal. rewrite <- (firstn_skipn (length b) c') at 1. rewrite C. reflexivity.
Qed.
Lemma holds_cut L s b n : holds L s b -> (n <= s_len s)%nat -> holds L (mkSl (s_arr s) n) (firstn n b).
Proof.
  intros (Hl & r & Hr) Hn. split; cbn [s_len s_arr]; [rewrite firstn_length; lia|]. exists (skipn n b ++ r). rewrite Hr. rewrite app_assoc, firstn_skipn. reflexivity.
Qed.
Lemma holds_set L s b c : firstn (s_len s) c = b -> (s_len s <= length c)%nat -> L (s_arr s) = Some c -> holds L s b.
Proof. intros Hb Hl Hc. split; [rewrite <- Hb, firstn_length; lia|]. exists (skipn (s_len s) c). rewrite Hc, <- Hb, firstn_skipn. reflexivity. Qed.
Lemma holds_read L s b c : holds L s b -> L (s_arr s) = Some c -> firstn (s_len s) c = b.
Proof. intros (Hl & r & Hr) Hc. rewrite Hr in Hc. injection Hc as <-. rewrite Hl, firstn_app, Nat.sub_diag, firstn_O, app_nil_r, firstn_all. reflexivity. Qed.

Lemma overwrite_at (a b r : bytes) : (length b <= length r)%nat -> overwrite (a ++ r) (length a) b = a ++ b ++ skipn (length b) r.
Proof.
  intros Hl. unfold overwrite. rewrite firstn_app, Nat.sub_diag, firstn_O, app_nil_r, firstn_all. f_equal. f_equal.
  rewrite skipn_app. rewrite (skipn_all2 a) by lia. cbn [app]. f_equal. lia.
Qed.
Lemma overwrite_length c i b : (i + length b <= length c)%nat -> length (overwrite c i b) = length c.
Proof. intros Hl. unfold overwrite. rewrite !app_length, firstn_length, skipn_length. lia. Qed.

Lemma pres_write L s c c' : L (s_arr s) = Some c -> length c' = length c -> firstn (s_len s) c' = firstn (s_len s) c -> pres L (lset L (s_arr s) c') s.
Proof.
  intros Hc Hl Hf a x Hx. split.
  - intros Hne. rewrite lset_other by assumption. exact Hx.
  - intros ->. rewrite Hx in Hc. injection Hc as ->. exists c'. rewrite lset_same. auto.
Qed.

Lemma lappend_ext L s b d L' s' : holds L s d -> lappend L s b L' s' -> holds L' s' (d ++ b) /\ ext L s L' s'.
Proof.
  intros (Hl & r & Hr) Ha. inversion Ha; subst.
  - rewrite Hr in H. injection H as <-. rewrite app_length in H0. rewrite Hl in *. rewrite overwrite_at by lia. split.
    + split; cbn [s_len s_arr]; [rewrite app_length; lia|]. rewrite lset_same. eexists. rewrite <- app_assoc. reflexivity.
    + split; [|split; [left; reflexivity | cbn [s_len]; lia]]. eapply pres_write; [exact Hr | |].
      * rewrite !app_length, skipn_length. lia.
      * rewrite Hl, !firstn_app, Nat.sub_diag, !firstn_O, !app_nil_r. reflexivity.
  - rewrite Hr in H. injection H as <-. rewrite Hl, firstn_app, Nat.sub_diag, firstn_O, app_nil_r, firstn_all. split.
    + split; cbn [s_len s_arr]; [rewrite app_length; lia|]. rewrite lset_same. eexists. rewrite <- app_assoc. reflexivity.
    + split; [apply pres_same, same_set; assumption|]. split; [right; assumption | cbn [s_len]; lia].
Qed.

Section Acts.
  Variable H : host.
  Context {A : Type} (Q : post A).

  Lemma good_append W own L s d b k : holds L s d ->
    (forall W' L' s', kincl W W' -> holds L' s' (d ++ b) -> ext L s L' s' -> good H Q W' own L' (k s')) -> good H Q W own L (PAppend s b k).
  Proof.
    intros Hd Hk. unfold PAppend. apply good_op; [eapply holds_owned; eauto|]. intros W1 W' own' L' x HW Ha. inversion Ha; subst. cbn [to_slice].
    destruct (lappend_ext _ _ _ _ _ _ Hd H6). auto.
  Qed.
  Lemma good_append_sub W own L s d r k : holds L s d -> readable L r ->
    (forall W' L' s', kincl W W' -> holds L' s' (d ++ lread L r) -> ext L s L' s' -> good H Q W' own L' (k s')) -> good H Q W own L (PAppendSub s r k).
  Proof.
    intros Hd Hr Hk. unfold PAppendSub. apply good_op; [split; [eapply holds_owned; eauto | exact Hr]|]. intros W1 W' own' L' x HW Ha. inversion Ha; subst. cbn [to_slice].
    destruct (lappend_ext _ _ _ _ _ _ Hd H6). auto.
  Qed.
  Lemma good_read W own L s d k : holds L s d -> (forall W', kincl W W' -> good H Q W' own L (k d)) -> good H Q W own L (PRead s k).
  Proof.
    intros Hd Hk. unfold PRead. apply good_op; [eapply holds_owned; eauto|]. intros W1 W' own' L' x HW Ha. inversion Ha; subst. cbn [to_bytes]. match goal with X : _ (s_arr s) = Some _ |- _ => rename X into HX end.
    rewrite (holds_read _ _ _ _ Hd HX). auto.
  Qed.
  Lemma good_cap W own L s d k : holds L s d -> (forall W' r, kincl W W' -> L (s_arr s) = Some (d ++ r) -> good H Q W' own L (k (length (d ++ r)))) -> good H Q W own L (PCap s k).
  Proof.
    intros Hd Hk. unfold PCap. apply good_op; [eapply holds_owned; eauto|]. intros W1 W' own' L' x HW Ha. inversion Ha; subst. cbn [to_nat]. match goal with X : _ (s_arr s) = Some _ |- _ => rename X into HX end.
    destruct Hd as (Hl & r & Hr). rewrite Hr in HX. injection HX as <-. eauto.
  Qed.
  Lemma good_make W own L n k : (forall W' a, kincl W W' -> L a = None -> good H Q W' own (lset L a (repeat 0 n)) (k (mkSl a n))) -> good H Q W own L (PMake n k).
  Proof. intros Hk. unfold PMake. apply good_op; [exact I|]. intros W1 W' own' L' x HW Ha. inversion Ha; subst. cbn [to_slice]. auto. Qed.
  Lemma good_spoil W own L s d k : holds L s d -> (forall W' L', kincl W W' -> pres L L' s -> good H Q W' own L' k) -> good H Q W own L (PSpoil s k).
  Proof.
    intros Hd Hk. unfold PSpoil. apply good_op; [eapply holds_owned; eauto|]. intros W1 W' own' L' x HW Ha. inversion Ha; subst. cbn [to_unit]. apply Hk; [exact HW|].
    eapply pres_write; [eassumption | |].
    - rewrite app_length, firstn_length. lia.
    - rewrite firstn_app, firstn_firstn, firstn_length, Nat.min_id. replace (s_len s - Nat.min (s_len s) (length c))%nat with 0%nat by lia. rewrite firstn_O, app_nil_r. reflexivity.
  Qed.
  Lemma good_user W own L s d b k : holds L s d ->
    (forall W' L' s', kincl W W' -> holds L' s' (d ++ b) -> ext L s L' s' -> good H Q W' own L' (k s')) -> good H Q W own L (PUser s b k).
  Proof.
    intros Hd Hk. unfold PUser. apply good_op; [eapply holds_owned; eauto|]. intros W1 W' own' L' x HW Ha. inversion Ha; subst; cbn [to_slice]; match goal with X : _ (s_arr s) = Some _ |- _ => rename X into HX end; (apply Hk; [exact HW| |]).
    - rewrite (holds_read _ _ _ _ Hd HX). destruct Hd as (Hl & _). split; cbn [s_len s_arr]; [rewrite app_length; lia|]. rewrite lset_same. eexists. rewrite <- app_assoc. reflexivity.
    - split; [|split; [left; reflexivity | cbn [s_len]; lia]]. eapply pres_write; [exact HX | |].
      + rewrite !app_length, firstn_length. lia.
      + rewrite firstn_app, firstn_firstn, firstn_length, Nat.min_id. replace (s_len s - Nat.min (s_len s) (length c))%nat with 0%nat by lia. rewrite firstn_O, app_nil_r. reflexivity.
    - rewrite (holds_read _ _ _ _ Hd HX). destruct Hd as (Hl & _). split; cbn [s_len s_arr]; [rewrite app_length; lia|]. rewrite lset_same. eexists. rewrite <- app_assoc. reflexivity.
    - split; [|split; [right; assumption | cbn [s_len]; lia]].
      intros x y Hx. assert (x <> a) by congruence. rewrite lset_other by assumption. split.
      + intros Hne. rewrite lset_other by assumption. exact Hx.
      + intros ->. rewrite Hx in HX. injection HX as ->. rewrite lset_same. eexists. split; [reflexivity|]. split; [rewrite app_length, firstn_length; lia|].
        rewrite firstn_app, firstn_firstn, firstn_length, Nat.min_id. replace (s_len s - Nat.min (s_len s) (length c))%nat with 0%nat by lia. rewrite firstn_O, app_nil_r. reflexivity.
  Qed.
  Lemma good_writes W own L s d b k : holds L s d ->
    (forall W' L' s', kincl W W' -> holds L' s' (d ++ b) -> ext L s L' s' -> good H Q W' own L' (k s')) -> good H Q W own L (PWrites s b k).
  Proof.
    intros Hd Hk. unfold PWrites. apply good_op; [exact I|]. intros W1 W' own' L' x HW Ha. inversion Ha; subst. cbn [to_pieces]. revert W' L' s d HW Hd Hk Ha.
    induction l as [|p l IH]; intros W' L' s d HW Hd Hk Ha; cbn [writes concat] in *.
    - apply Hk; [exact HW | rewrite app_nil_r; exact Hd | apply ext_refl].
    - eapply good_user; [exact Hd|]. intros W2 L2 s2 HW2 Hd2 He2. eapply (IH W2 L2 s2 (d ++ p)); [eapply kincl_trans; eauto | exact Hd2 | | constructor; reflexivity].
      intros W3 L3 s3 HW3 Hd3 He3. rewrite <- app_assoc in Hd3. apply Hk; [exact HW3 | exact Hd3 | eapply ext_trans; eauto].
  Qed.
  Lemma good_write W own L s i b d k : holds L s d -> (i + length b <= s_len s)%nat ->
    (forall W', kincl W W' -> (forall r, L (s_arr s) = Some (d ++ r) -> good H Q W' own (lset L (s_arr s) (overwrite (d ++ r) i b)) k)) -> good H Q W own L (PWrite s i b k).
  Proof.
    intros Hd Hi Hk. unfold PWrite. apply good_op; [split; [eapply holds_owned; eauto | exact Hi]|]. intros W1 W' own' L' x HW Ha. inversion Ha; subst. cbn [to_unit]. match goal with X : _ (s_arr s) = Some _ |- _ => rename X into HX end.
    destruct Hd as (Hl & r & Hr). rewrite Hr in HX. injection HX as <-. eauto.
  Qed.
  (** copy into a fresh slice *)
  Lemma good_copy W own L d s b cd k : L (s_arr d) = Some cd -> holds L s b -> (s_len s <= s_len d)%nat -> (s_len d <= length cd)%nat -> s_arr d <> s_arr s ->
    (forall W', kincl W W' -> good H Q W' own (lset L (s_arr d) (b ++ skipn (length b) cd)) k) -> good H Q W own L (PCopy d s k).
  Proof.
    intros Hc Hd Hl Hlc Hne Hk. unfold PCopy. apply good_op.
    { split; [exists cd; auto | eapply holds_owned; eauto]. }
    intros W1 W' own' L' x HW Ha. inversion Ha; subst. cbn [to_unit]. destruct Hd as (Hlb & r & Hr). match goal with |- context [overwrite ?x 0 (firstn _ ?y)] => assert (x = cd) by congruence; assert (y = b ++ r) by congruence; subst x y end.
    rewrite Nat.min_r by lia. rewrite Hlb, firstn_app, Nat.sub_diag, firstn_O, app_nil_r, firstn_all. unfold overwrite. rewrite firstn_O. cbn [app Nat.add]. auto.
  Qed.
  Lemma good_put W own L s d k : holds L s d -> (forall W', kincl W W' -> good H Q W' own (ldel L (s_arr s)) k) -> good H Q W own L (PPutBuf s k).
  Proof. intros Hd Hk. unfold PPutBuf. apply good_op; [eapply holds_owned; eauto|]. intros W1 W' own' L' x HW Ha. inversion Ha; subst. cbn [to_unit]. auto. Qed.
  (** buffer.go:17-27 *)
  Lemma good_get_buf W own L k : (forall W' L' s, kincl W W' -> L (s_arr s) = None -> same L L' -> holds L' s [] -> good H Q W' own L' (k s)) -> good H Q W own L (get_buf k).
  Proof.
    intros Hk. unfold get_buf, PGetBuf. apply good_op; [exact I|]. intros W1 W' own' L' x HW Ha. inversion Ha; subst; cbn [to_slice_opt].
    - apply good_make. intros W2 a HW2 Hn. apply Hk; [eapply kincl_trans; eauto | exact Hn | apply same_set; exact Hn|]. split; [reflexivity|]. cbn [s_arr]. rewrite lset_same. eexists. reflexivity.
    - apply Hk; [exact HW | assumption | apply same_set; assumption|]. split; [reflexivity|]. cbn [s_arr]. rewrite lset_same. eexists. reflexivity.
  Qed.
End Acts.
