(** isValidNumber decides the RFC 8259 number grammar. *)
From Verif Require Import Base JsonSpec NumberModel.

Lemma is_digit_spec b : is_digit b = true <-> digit b.
Proof. unfold is_digit, digit. lia. Qed.

Lemma drop_digits_split s : exists ds, Forall digit ds /\ s = ds ++ drop_digits s /\
  match drop_digits s with [] => True | c :: _ => is_digit c = false end.
Proof.
  induction s as [|c s (ds & H1 & H2 & H3)]; simpl.
  - exists []. repeat split; constructor.
  - destruct (is_digit c) eqn:E.
    + exists (c :: ds). split; [constructor; [apply is_digit_spec, E | exact H1]|]. split; [simpl; congruence | exact H3].
    + exists []. repeat split; auto.
Qed.

Lemma drop_digits_app ds t : Forall digit ds -> drop_digits (ds ++ t) = drop_digits t.
Proof.
  induction 1 as [|d ds Hd H IH]; simpl; [reflexivity|].
  apply is_digit_spec in Hd. rewrite Hd. exact IH.
Qed.

Lemma drop_digits_all ds : Forall digit ds -> drop_digits ds = [].
Proof. intros H. rewrite <- (app_nil_r ds), drop_digits_app by assumption. reflexivity. Qed.

Lemma drop_digits_stop c s : is_digit c = false -> drop_digits (c :: s) = c :: s.
Proof. simpl. intros ->. reflexivity. Qed.

Lemma num_exp_sound s : num_exp s = Some [] -> jexp s.
Proof.
  destruct s as [|c [|d s]]; simpl; intros H; try discriminate; [constructor|].
  destruct ((c =? 101) || (c =? 69)) eqn:E; [|discriminate].
  assert (Hc : c = 101 \/ c = 69) by lia.
  destruct ((d =? 43) || (d =? 45)) eqn:E2.
  - destruct s as [|x s]; [discriminate|]. injection H as H.
    destruct (drop_digits_split (x :: s)) as (ds & H1 & H2 & _).
    simpl in H2. rewrite H, app_nil_r in H2.
    change (c :: d :: x :: s) with (c :: [d] ++ (x :: s)).
    constructor; [exact Hc | right; assert (d = 43 \/ d = 45) as [->| ->] by lia; auto |].
    split; [discriminate | congruence].
  - destruct (is_digit d) eqn:E3.
    + injection H as H.
      destruct (drop_digits_split s) as (ds & H1 & H2 & _). rewrite H, app_nil_r in H2.
      change (c :: d :: s) with (c :: [] ++ (d :: s)).
      constructor; [exact Hc | auto |].
      split; [discriminate | constructor; [apply is_digit_spec, E3 | congruence]].
    + discriminate.
Qed.

Lemma num_exp_complete s : jexp s -> num_exp s = Some [].
Proof.
  intros [|e sg ds He Hsg [Hne Hd]]; [reflexivity|].
  destruct ds as [|d ds]; [congruence|].
  assert (Hdd : is_digit d = true) by (apply is_digit_spec; inversion Hd; assumption).
  assert (He' : (e =? 101) || (e =? 69) = true) by lia.
  destruct Hsg as [->|[->| ->]]; simpl; rewrite He'.
  - replace ((d =? 43) || (d =? 45)) with false by (unfold is_digit in Hdd; lia).
    rewrite Hdd, drop_digits_all; [reflexivity | inversion Hd; assumption].
  - rewrite Hdd, drop_digits_all; [reflexivity | inversion Hd; assumption].
  - rewrite Hdd, drop_digits_all; [reflexivity | inversion Hd; assumption].
Qed.

Lemma jexp_head s : jexp s -> match s with [] => True | c :: _ => is_digit c = false /\ c <> 46 end.
Proof. intros [|e sg ds He _ _]; simpl; [exact I|]. unfold is_digit. lia. Qed.

Lemma num_tail_spec s : num_tail s = true <-> exists f e, s = f ++ e /\ jfrac f /\ jexp e.
Proof.
  unfold num_tail. split.
  - intros H. destruct (num_exp (num_frac s)) as [[|? ?]|] eqn:E; try discriminate.
    apply num_exp_sound in E.
    destruct s as [|c [|d s]]; simpl in E.
    + exists [], []. repeat split; constructor.
    + exists [], [c]. repeat split; [constructor | exact E].
    + destruct ((c =? 46) && is_digit d) eqn:E2.
      * apply andb_true_iff in E2. destruct E2 as [E2 E3]. apply Z.eqb_eq in E2. subst c.
        destruct (drop_digits_split s) as (ds & H1 & H2 & _).
        exists (46 :: d :: ds), (drop_digits s). split; [simpl; congruence|]. split; [|exact E].
        constructor. split; [discriminate | constructor; [apply is_digit_spec, E3 | exact H1]].
      * exists [], (c :: d :: s). repeat split; [constructor | exact E].
  - intros (f & e & -> & [|ds [Hne Hd]] & He).
    + simpl. assert (num_frac e = e) as ->.
      { destruct e as [|c [|d e]]; simpl; try reflexivity. apply jexp_head in He.
        replace (c =? 46) with false by lia. reflexivity. }
      rewrite num_exp_complete; auto.
    + destruct ds as [|d ds]; [congruence|]. inversion Hd as [|? ? Hd1 Hd2]; subst.
      apply is_digit_spec in Hd1.
      cbn [num_frac app]. rewrite Hd1. cbn [andb Z.eqb Pos.eqb].
      rewrite drop_digits_app by assumption.
      assert (drop_digits e = e) as ->.
      { apply jexp_head in He. destruct e as [|c e]; [reflexivity|]. apply drop_digits_stop; tauto. }
      rewrite num_exp_complete; auto.
Qed.

Lemma num_int_spec s : num_int s = true <-> exists i f e, s = i ++ f ++ e /\ jint i /\ jfrac f /\ jexp e.
Proof.
  split.
  - destruct s as [|c s]; simpl; [discriminate|].
    destruct (c =? 48) eqn:E.
    + intros H. apply num_tail_spec in H. destruct H as (f & e & -> & Hf & He).
      exists [48], f, e. split; [simpl; f_equal; lia|]. repeat split; auto; constructor.
    + destruct ((49 <=? c) && (c <=? 57)) eqn:E2; [|discriminate].
      intros H. apply num_tail_spec in H. destruct H as (f & e & H & Hf & He).
      destruct (drop_digits_split s) as (ds & H1 & H2 & _).
      exists (c :: ds), f, e. split; [simpl; congruence|]. repeat split; auto. constructor; [lia | exact H1].
  - intros (i & f & e & -> & Hi & Hf & He).
    assert (T : num_tail (f ++ e) = true) by (apply num_tail_spec; eauto).
    destruct Hi as [|d ds Hd Hds]; simpl.
    + exact T.
    + replace (d =? 48) with false by lia.
      replace ((49 <=? d) && (d <=? 57)) with true by lia.
      rewrite drop_digits_app by assumption.
      assert (drop_digits (f ++ e) = f ++ e) as ->; [|exact T].
      destruct Hf as [|ds' Hds']; simpl; [|reflexivity].
      apply jexp_head in He. destruct e as [|c e]; [reflexivity|]. apply drop_digits_stop; tauto.
Qed.

Lemma jint_head i : jint i -> exists d t, i = d :: t /\ d <> 45.
Proof. intros [|d ds H _]; eexists; eexists; split; try reflexivity; lia. Qed.

Theorem is_valid_number_correct s : is_valid_number s = true <-> jnumber s.
Proof.
  unfold jnumber. split.
  - destruct s as [|c s]; [discriminate|]. cbn [is_valid_number].
    destruct (c =? 45) eqn:E; intros H; apply num_int_spec in H; destruct H as (i & f & e & H & Hi & Hf & He).
    + exists [45], i, f, e. split; [simpl; f_equal; [lia | exact H]|]. auto.
    + exists [], i, f, e. auto.
  - intros (m & i & f & e & -> & Hm & Hi & Hf & He).
    assert (T : num_int (i ++ f ++ e) = true) by (apply num_int_spec; exists i, f, e; auto).
    destruct Hm as [->| ->]; simpl.
    + destruct (jint_head i Hi) as (d & t & -> & Hd). simpl in *.
      replace (d =? 45) with false by lia. exact T.
    + exact T.
Qed.

(** Number literals never look like anything else. *)
Lemma jnumber_head s : jnumber s -> exists c t, s = c :: t /\ (c = 45 \/ digit c).
Proof.
  intros (m & i & f & e & -> & [->| ->] & Hi & _); [|eexists; eexists; split; [reflexivity|]; auto].
  destruct Hi as [|d ds Hd _]; simpl; eexists; eexists; (split; [reflexivity|]); right; unfold digit; lia.
Qed.

(** The characters a number can contain. *)
Definition numchar (b : Z) : Prop := digit b \/ b = 45 \/ b = 43 \/ b = 46 \/ b = 101 \/ b = 69.
Lemma jnumber_chars s : jnumber s -> Forall numchar s.
Proof.
  assert (D : forall ds, Forall digit ds -> Forall numchar ds).
  { intros ds H. eapply Forall_impl; [|exact H]. unfold numchar; auto. }
  intros (m & i & f & e & -> & Hm & Hi & Hf & He). rewrite !Forall_app. repeat split.
  - destruct Hm as [->| ->]; repeat constructor; unfold numchar; lia.
  - destruct Hi; constructor; auto; unfold numchar, digit; lia.
  - destruct Hf as [|ds [_ H]]; [constructor|]. constructor; auto. unfold numchar; lia.
  - destruct He as [|x sg ds Hx Hs [_ H]]; [constructor|]. constructor; [unfold numchar; lia|].
    apply Forall_app; split; auto.
    destruct Hs as [->|[->| ->]]; repeat constructor; unfold numchar; lia.
Qed.
