(** The sort-and-filter half of structFields keeps a field exactly when no
    other entry of the same name is at or before it in (depth, untagged)
    order. *)
From Coq Require Import Permutation Sorted Lia.
From Verif Require Import Base OptionsModel TypesModel TypesFacts TagsModel MemModel FieldsModel.
Local Open Scope nat_scope.

Lemma index_less_irrefl a : index_less a a = false.
Proof. induction a as [|x a IH]; cbn; [reflexivity|]. rewrite Nat.eqb_refl. exact IH. Qed.

Lemma index_less_trans a : forall b c, index_less a b = true -> index_less b c = true -> index_less a c = true.
Proof.
  induction a as [|x a IH]; intros [|y b] [|z c]; cbn [index_less]; try congruence.
  destruct (Nat.eqb_spec x y) as [->|N1], (Nat.eqb_spec y z) as [->|N2]; rewrite ?Nat.eqb_refl; intros H1 H2; rewrite ?Nat.ltb_lt in H1, H2.
  - eapply IH; eauto.
  - destruct (Nat.eqb_spec y z); [lia | apply Nat.ltb_lt; lia].
  - destruct (Nat.eqb_spec x z); [lia | apply Nat.ltb_lt; lia].
  - destruct (Nat.eqb_spec x z); [lia | apply Nat.ltb_lt; lia].
Qed.

Lemma index_less_total a : forall b, index_less a b = true \/ index_less b a = true \/ a = b.
Proof.
  induction a as [|x a IH]; intros [|y b]; cbn; auto.
  rewrite (Nat.eqb_sym y x). destruct (x =? y) eqn:E; rewrite ?Nat.eqb_eq, ?Nat.eqb_neq in E.
  - subst. destruct (IH b) as [H | [H | ->]]; auto.
  - destruct (Nat.lt_ge_cases x y); [left; apply Nat.ltb_lt; auto | right; left; apply Nat.ltb_lt; lia].
Qed.

Section SortFacts.
  Context {A : Type} (less : A -> A -> bool).
  Lemma ins_perm x l : Permutation (x :: l) (ins less x l).
  Proof. induction l as [|y l IH]; cbn; auto. destruct (less y x); auto. rewrite perm_swap. constructor. exact IH. Qed.
  Lemma isort_perm l : Permutation l (isort less l).
  Proof. induction l as [|x l IH]; cbn; auto. rewrite <- ins_perm. constructor. exact IH. Qed.

  Hypothesis less_asym : forall x y, less x y = true -> less y x = false.
  Hypothesis ge_trans : forall x y z, less y x = false -> less z y = false -> less z x = false.
  Definition le_ x y := less y x = false.

  Lemma ins_sorted x l : StronglySorted le_ l -> StronglySorted le_ (ins less x l).
  Proof.
    induction 1 as [|y l Hl IH Hy]; cbn; [repeat constructor|].
    destruct (less y x) eqn:E.
    - constructor; [assumption|]. rewrite Forall_forall in *. intros z Hz.
      apply Permutation_in with (l' := x :: l) in Hz; [|symmetry; apply ins_perm].
      destruct Hz as [<-|Hz]; [apply less_asym, E | auto].
    - constructor; [constructor; auto|]. constructor; [exact E|].
      rewrite Forall_forall in *. intros z Hz. specialize (Hy z Hz). unfold le_ in *. eapply ge_trans; eauto.
  Qed.
  Lemma isort_sorted l : StronglySorted le_ (isort less l).
  Proof. induction l; cbn; [constructor | apply ins_sorted; assumption]. Qed.

  (** Any sorted permutation is this one when incomparable elements are equal. *)
  Lemma sorted_unique l : forall l', (forall x y, In x l -> In y l -> less x y = false -> less y x = false -> x = y) ->
    Permutation l l' -> StronglySorted le_ l -> StronglySorted le_ l' -> l = l'.
  Proof.
    induction l as [|x l IH]; intros l' Ht Hp Hs Hs'.
    - apply Permutation_nil in Hp. congruence.
    - destruct l' as [|y l']; [symmetry in Hp; apply Permutation_nil in Hp; discriminate|].
      inversion Hs as [|? ? Hl Hx]; subst. inversion Hs' as [|? ? Hl' Hy]; subst. rewrite Forall_forall in Hx, Hy.
      assert (x = y) as <-.
      { assert (Iy : In y (x :: l)) by (eapply Permutation_in; [symmetry; exact Hp | left; reflexivity]).
        assert (Ix : In x (y :: l')) by (eapply Permutation_in; [exact Hp | left; reflexivity]).
        destruct Iy as [->|Iy]; auto. destruct Ix as [->|Ix]; auto.
        apply Ht; [left; auto | right; auto | apply Hy, Ix | apply Hx, Iy]. }
      f_equal. apply IH; auto; [intros; apply Ht; auto; right; auto|]. eapply Permutation_cons_inv. exact Hp.
  Qed.
End SortFacts.

(** ** The order of sortFields *)
Definition rkey (f : field) : nat := 2 * length (f_index f) + (if f_tag f then 0 else 1).

Lemma field_less_iff x y : field_less x y = true <->
  bytes_ltb (f_name x) (f_name y) = true \/
  (f_name x = f_name y /\ (rkey x < rkey y \/ (rkey x = rkey y /\ index_less (f_index x) (f_index y) = true))).
Proof.
  unfold field_less, rkey. destruct (bytes_eqb (f_name x) (f_name y)) eqn:En; cbn [negb].
  - apply bytes_eqb_eq in En. rewrite En, bytes_ltb_irrefl.
    destruct (length (f_index x) =? length (f_index y)) eqn:El; cbn [negb]; rewrite ?Nat.eqb_eq, ?Nat.eqb_neq in El.
    + destruct (f_tag x), (f_tag y); cbn [Bool.eqb negb]; split; try (intros; right; split; [reflexivity|]); intros; try lia; auto;
        try (right; split; [lia | assumption]); try (left; lia);
        (destruct H as [H | (_ & [H | (_ & H)])]; [discriminate | lia | assumption || lia]).
    + rewrite Nat.ltb_lt. split; [intros; right; split; [reflexivity|]; left; destruct (f_tag x), (f_tag y); lia|].
      intros [H | (_ & [H | (H & _)])]; [discriminate | |]; destruct (f_tag x), (f_tag y); lia.
  - split; [auto|]. intros [H | (H & _)]; [assumption|]. rewrite H, bytes_eqb_refl in En. discriminate.
Qed.

Lemma field_less_trans x y z : field_less x y = true -> field_less y z = true -> field_less x z = true.
Proof.
  rewrite !field_less_iff. intros [H1 | (E1 & H1)] [H2 | (E2 & H2)].
  - left. eapply bytes_ltb_trans; eauto.
  - left. congruence.
  - left. congruence.
  - right. split; [congruence|]. destruct H1 as [H1 | (R1 & I1)], H2 as [H2 | (R2 & I2)]; try (left; lia).
    right. split; [lia|]. eapply index_less_trans; eauto.
Qed.

Lemma field_less_irrefl x : field_less x x = false.
Proof.
  destruct (field_less x x) eqn:E; [|reflexivity]. apply field_less_iff in E.
  destruct E as [E | (_ & [E | (_ & E)])]; [rewrite bytes_ltb_irrefl in E; discriminate | lia | rewrite index_less_irrefl in E; discriminate].
Qed.

Lemma field_less_asym x y : field_less x y = true -> field_less y x = false.
Proof.
  intros H. destruct (field_less y x) eqn:E; [|reflexivity].
  pose proof (field_less_trans _ _ _ H E) as C. rewrite field_less_irrefl in C. discriminate.
Qed.

Lemma field_less_total x y : field_less x y = false -> field_less y x = false ->
  f_name x = f_name y /\ rkey x = rkey y /\ f_index x = f_index y.
Proof.
  intros H1 H2.
  assert (N1 : ~ field_less x y = true) by congruence. assert (N2 : ~ field_less y x = true) by congruence.
  rewrite field_less_iff in N1, N2.
  assert (f_name x = f_name y) as En.
  { apply bytes_ltb_total; apply not_true_is_false; tauto. }
  split; [assumption|]. rewrite En in *.
  destruct (Nat.lt_trichotomy (rkey x) (rkey y)) as [H | [H | H]]; [exfalso; apply N1; auto | | exfalso; apply N2; auto].
  split; [assumption|]. destruct (index_less_total (f_index x) (f_index y)) as [I | [I | I]]; auto; exfalso; [apply N1 | apply N2]; right; auto.
Qed.

Lemma field_le_iff x y : field_less y x = false <->
  bytes_ltb (f_name x) (f_name y) = true \/
  (f_name x = f_name y /\ (rkey x < rkey y \/ (rkey x = rkey y /\ index_less (f_index y) (f_index x) = false))).
Proof.
  split.
  - intros H. destruct (field_less x y) eqn:E.
    + apply field_less_iff in E. destruct E as [E | (En & [E | (Er & E)])]; auto. right. split; auto. right. split; auto.
      destruct (index_less (f_index y) (f_index x)) eqn:I; auto. pose proof (index_less_trans _ _ _ E I) as C. rewrite index_less_irrefl in C. discriminate.
    + destruct (field_less_total _ _ E H) as (En & Er & Ei). right. split; auto. right. split; auto. rewrite Ei. apply index_less_irrefl.
  - intros H. destruct (field_less y x) eqn:E; [|reflexivity]. apply field_less_iff in E.
    destruct H as [H | (En & H)], E as [E | (En' & E)].
    + pose proof (bytes_ltb_trans _ _ _ H E) as C. rewrite bytes_ltb_irrefl in C. discriminate.
    + rewrite En', bytes_ltb_irrefl in H. discriminate.
    + rewrite En, bytes_ltb_irrefl in E. discriminate.
    + destruct H as [H | (? & H)], E as [E | (? & E)]; try lia. congruence.
Qed.

Lemma field_ge_trans x y z : field_less y x = false -> field_less z y = false -> field_less z x = false.
Proof.
  rewrite !field_le_iff. intros [H1 | (E1 & H1)] [H2 | (E2 & H2)].
  - left. eapply bytes_ltb_trans; eauto.
  - left. congruence.
  - left. congruence.
  - right. split; [congruence|]. destruct H1 as [H1 | (R1 & I1)], H2 as [H2 | (R2 & I2)]; try (left; lia).
    right. split; [lia|]. destruct (index_less (f_index z) (f_index x)) eqn:I; auto. exfalso.
    destruct (index_less_total (f_index x) (f_index y)) as [J | [J | J]]; [| congruence | congruence].
    pose proof (index_less_trans _ _ _ I J) as C. congruence.
Qed.

Definition fle := le_ field_less.
Lemma sort_fields_sorted l : StronglySorted fle (isort field_less l).
Proof. apply isort_sorted; [apply field_less_asym | apply field_ge_trans]. Qed.

(** sort.Slice may use any algorithm. *)
Lemma sorted_fields_unique l l' :
  (forall x y, In x l -> In y l -> f_index x = f_index y -> x = y) ->
  Permutation l l' -> StronglySorted fle l' -> l' = isort field_less l.
Proof.
  intros Hd Hp Hs. eapply sorted_unique; [|  | exact Hs | apply sort_fields_sorted].
  - intros x y Hx Hy H1 H2. destruct (field_less_total x y H1 H2) as (_ & _ & Ei). apply Hd; auto; (eapply Permutation_in; [symmetry; exact Hp | assumption]).
  - rewrite <- Hp. apply isort_perm.
Qed.

(** ** filterByVisibility *)
Definition beats (f g : field) : bool := bytes_eqb (f_name g) (f_name f) && (rkey g <=? rkey f).
Definition rivals (f : field) (l : list field) : nat := length (filter (beats f) l).

Lemma rivals_perm f l l' : Permutation l l' -> rivals f l = rivals f l'.
Proof.
  unfold rivals. induction 1 as [|x l l' _ IH|x y l|l1 l2 l3 _ IH1 _ IH2]; cbn; auto; try congruence.
  - destruct (beats f x); cbn; congruence.
  - destruct (beats f x), (beats f y); reflexivity.
Qed.

Lemma rivals_app f l1 l2 : rivals f (l1 ++ l2) = rivals f l1 + rivals f l2.
Proof. unfold rivals. rewrite filter_app, app_length. reflexivity. Qed.

Lemma rivals_self f l : In f l -> 1 <= rivals f l.
Proof.
  intros H. apply in_split in H. destruct H as (a & b & ->). rewrite rivals_app. unfold rivals at 2. cbn [filter].
  replace (beats f f) with true by (unfold beats; rewrite bytes_eqb_refl, Nat.leb_refl; reflexivity). cbn [length]. lia.
Qed.

Lemma span_name_spec n l g r : span_name n l = (g, r) ->
  l = g ++ r /\ Forall (fun f => f_name f = n) g /\ (match r with [] => True | f :: _ => f_name f <> n end).
Proof.
  revert g r. induction l as [|f l IH]; cbn; intros g r H; [injection H as <- <-; auto|].
  destruct (bytes_eqb (f_name f) n) eqn:E.
  - destruct (span_name n l) as [a b]. injection H as <- <-. destruct (IH a b eq_refl) as (-> & H2 & H3).
    apply bytes_eqb_eq in E. repeat split; auto.
  - injection H as <- <-. repeat split; auto. apply bytes_eqb_neq in E. exact E.
Qed.

Lemma sorted_app {A} (R : A -> A -> Prop) a b : StronglySorted R (a ++ b) ->
  StronglySorted R a /\ StronglySorted R b /\ forall x y, In x a -> In y b -> R x y.
Proof.
  induction a as [|x a IH]; cbn; intros H; [repeat split; auto; [constructor | intros ? ? []]|].
  inversion H as [|? ? Hs Hx]; subst. destruct (IH Hs) as (H1 & H2 & H3). rewrite Forall_forall in Hx.
  repeat split; auto.
  - constructor; auto. rewrite Forall_forall. intros y Hy. apply Hx, in_or_app. auto.
  - intros u v [<-|Hu] Hv; [apply Hx, in_or_app; auto | apply H3; auto].
Qed.

Lemma fle_name x y : fle x y -> f_name x = f_name y \/ bytes_ltb (f_name x) (f_name y) = true.
Proof. unfold fle, le_. rewrite field_le_iff. tauto. Qed.
Lemma fle_rkey x y : fle x y -> f_name x = f_name y -> rkey x <= rkey y.
Proof. unfold fle, le_. rewrite field_le_iff. intros [H | (_ & [H | (H & _)])] E; try lia. rewrite E, bytes_ltb_irrefl in H. discriminate. Qed.

(** In a sorted list the entries after a run of one name have other names. *)
Lemma rest_names n g r f0 : StronglySorted fle (f0 :: g ++ r) -> f_name f0 = n -> Forall (fun f => f_name f = n) g ->
  (match r with [] => True | f :: _ => f_name f <> n end) -> Forall (fun f => f_name f <> n) r.
Proof.
  intros Hs Hn Hg Hr. destruct r as [|f r]; constructor; auto.
  change (f0 :: g ++ f :: r) with ((f0 :: g) ++ f :: r) in Hs. destruct (sorted_app _ _ _ Hs) as (_ & H2 & H3).
  inversion H2 as [|? ? _ Hf]; subst. rewrite Forall_forall in *. intros h Hh Eh. specialize (Hf h Hh).
  assert (F0 : fle f0 f) by (apply H3; left; reflexivity).
  destruct (fle_name _ _ F0) as [F|F]; [congruence|]. destruct (fle_name _ _ Hf) as [G|G]; [rewrite G, Eh in F; rewrite bytes_ltb_irrefl in F; discriminate|].
  pose proof (bytes_ltb_trans _ _ _ F G) as C. rewrite Eh, bytes_ltb_irrefl in C. discriminate.
Qed.

Lemma rivals_other f l : Forall (fun g => f_name g <> f_name f) l -> rivals f l = 0.
Proof.
  unfold rivals. induction 1 as [|g l Hg _ IH]; cbn; auto. unfold beats at 1.
  replace (bytes_eqb (f_name g) (f_name f)) with false by (symmetry; apply bytes_eqb_neq; exact Hg). exact IH.
Qed.

Lemma dominant_group_eq f g : dominant (f :: g) =
  match g with [] => [f] | f1 :: _ => if rkey f =? rkey f1 then [] else [f] end.
Proof.
  unfold dominant, rkey. destruct g as [|f1 g]; [reflexivity|].
  destruct (length (f_index f) =? length (f_index f1)) eqn:El; rewrite ?Nat.eqb_eq, ?Nat.eqb_neq in El; cbn [andb];
    destruct (f_tag f), (f_tag f1); cbn [Bool.eqb]; match goal with |- context [?a =? ?b] => destruct (a =? b) eqn:E; rewrite ?Nat.eqb_eq, ?Nat.eqb_neq in E end; auto; lia.
Qed.

Lemma group_spec f g : StronglySorted fle (f :: g) -> Forall (fun h => f_name h = f_name f) g ->
  forall x, In x (dominant (f :: g)) <-> In x (f :: g) /\ rivals x (f :: g) = 1.
Proof.
  intros Hs Hn x. rewrite dominant_group_eq. inversion Hs as [|? ? Hs' Hf]; subst. rewrite Forall_forall in Hf, Hn.
  assert (Hmin : forall y, In y g -> rkey f <= rkey y). { intros y Hy. apply fle_rkey; auto. symmetry. auto. }
  assert (Hb : forall y z, In y (f :: g) -> In z (f :: g) -> beats y z = (rkey z <=? rkey y)).
  { intros y z Hy Hz. unfold beats. replace (bytes_eqb (f_name z) (f_name y)) with true; [reflexivity|]. symmetry. apply bytes_eqb_eq.
    destruct Hy as [<-|Hy], Hz as [<-|Hz]; rewrite ?(Hn y), ?(Hn z); auto. }
  assert (Hlt : forall y, In y g -> 2 <= rivals y (f :: g)).
  { intros y Hy. unfold rivals. cbn [filter]. rewrite (Hb y f); [| right; auto | left; auto].
    replace (rkey f <=? rkey y) with true by (symmetry; apply Nat.leb_le; auto). cbn [length]. pose proof (rivals_self y g Hy). unfold rivals in *. lia. }
  destruct g as [|f1 g].
  - cbn [In]. split; [intros [<-|[]]; split; auto; unfold rivals; cbn [filter]; rewrite (Hb f f); [rewrite Nat.leb_refl; reflexivity | left; auto | left; auto] | tauto].
  - assert (Hf1 : forall y, In y g -> rkey f1 <= rkey y).
    { intros y Hy. inversion Hs' as [|? ? _ Hf1]; subst. rewrite Forall_forall in Hf1. apply fle_rkey; auto.
      rewrite (Hn f1), (Hn y); auto; [right; auto | left; auto]. }
    destruct (rkey f =? rkey f1) eqn:E; rewrite ?Nat.eqb_eq, ?Nat.eqb_neq in E.
    + split; [intros []|]. intros [Hin Hr]. destruct Hin as [<-|Hin]; [|specialize (Hlt x Hin); lia].
      unfold rivals in Hr. cbn [filter] in Hr. rewrite (Hb f f), (Hb f f1), Nat.leb_refl in Hr; try (left; reflexivity); try (right; left; reflexivity).
      replace (rkey f1 <=? rkey f) with true in Hr by (symmetry; apply Nat.leb_le; lia). cbn [length] in Hr. lia.
    + cbn [In]. split.
      * intros [<-|[]]. split; [left; reflexivity|]. unfold rivals. cbn [filter]. rewrite (Hb f f), Nat.leb_refl by (left; reflexivity). cbn [length]. f_equal.
        assert (Hz : forall l, (forall y, In y l -> In y (f1 :: g)) -> length (filter (beats f) l) = 0).
        { induction l as [|y l IH]; intros Hl; auto. cbn [filter]. rewrite (Hb f y); [|left; auto | right; apply Hl; left; auto].
          assert (rkey f1 <= rkey y) by (destruct (Hl y (or_introl eq_refl)) as [<-|Hy]; auto).
          pose proof (Hmin f1 (or_introl eq_refl)). replace (rkey y <=? rkey f) with false by (symmetry; apply Nat.leb_gt; lia).
          apply IH. intros z Hz. apply Hl. right. exact Hz. }
        apply (Hz (f1 :: g)). auto.
      * intros [[<-|Hin] Hr]; [auto|]. specialize (Hlt x Hin). lia.
Qed.

Lemma filter_vis_spec : forall fuel l, length l <= fuel -> StronglySorted fle l ->
  forall x, In x (filter_vis fuel l) <-> In x l /\ rivals x l = 1.
Proof.
  induction fuel as [|fuel IH]; intros l Hf Hs x.
  - destruct l; [cbn; tauto | cbn in Hf; lia].
  - destruct l as [|f l]; [cbn; tauto|]. cbn [filter_vis].
    destruct (span_name (f_name f) l) as [g r] eqn:Es. destruct (span_name_spec _ _ _ _ Es) as (-> & Hg & Hr).
    pose proof (rest_names _ g r f Hs eq_refl Hg Hr) as Hrn.
    change (f :: g ++ r) with ((f :: g) ++ r) in *. destruct (sorted_app _ _ _ Hs) as (S1 & S2 & _).
    replace (match g with [] => [f] | _ :: _ => dominant (f :: g) end) with (dominant (f :: g)) by (destruct g; reflexivity).
    rewrite !in_app_iff, (group_spec f g S1 Hg), (IH r) by (auto; cbn in Hf; rewrite app_length in Hf; cbn in Hf; lia).
    rewrite rivals_app. split.
    + intros [[H1 H2] | [H1 H2]]; (split; [auto|]).
      * assert (f_name x = f_name f) by (destruct H1 as [<-|H1]; auto; rewrite Forall_forall in Hg; auto).
        rewrite (rivals_other x r); [lia|]. rewrite H. exact Hrn.
      * rewrite Forall_forall in Hrn. specialize (Hrn x H1). rewrite (rivals_other x (f :: g)); [lia|].
        constructor; [congruence|]. eapply Forall_impl; [|exact Hg]. cbn. intros; congruence.
    + intros [[H1 | H1] H2].
      * left. split; [assumption|]. assert (f_name x = f_name f) by (destruct H1 as [<-|H1]; auto; rewrite Forall_forall in Hg; auto).
        rewrite (rivals_other x r) in H2; [lia|]. rewrite H. exact Hrn.
      * right. split; [assumption|]. rewrite Forall_forall in Hrn. specialize (Hrn x H1). rewrite (rivals_other x (f :: g)) in H2; [lia|].
        constructor; [congruence|]. eapply Forall_impl; [|exact Hg]. cbn. intros; congruence.
Qed.

Lemma filter_vis_names : forall fuel l, length l <= fuel -> StronglySorted fle l -> NoDup (map f_name (filter_vis fuel l)).
Proof.
  induction fuel as [|fuel IH]; intros l Hf Hs; [destruct l; constructor|].
  destruct l as [|f l]; [constructor|]. cbn [filter_vis].
  destruct (span_name (f_name f) l) as [g r] eqn:Es. destruct (span_name_spec _ _ _ _ Es) as (-> & Hg & Hr).
  pose proof (rest_names _ g r f Hs eq_refl Hg Hr) as Hrn.
  change (f :: g ++ r) with ((f :: g) ++ r) in *. destruct (sorted_app _ _ _ Hs) as (S1 & S2 & _).
  replace (match g with [] => [f] | _ :: _ => dominant (f :: g) end) with (dominant (f :: g)) by (destruct g; reflexivity).
  assert (Hl : length r <= fuel) by (cbn in Hf; rewrite app_length in Hf; cbn in Hf; lia).
  specialize (IH r Hl S2).
  assert (Hd : dominant (f :: g) = [] \/ dominant (f :: g) = [f]).
  { rewrite dominant_group_eq. destruct g as [|f1 g]; auto. destruct (_ =? _); auto. }
  destruct Hd as [-> | ->]; [exact IH|]. cbn. constructor; auto.
  rewrite in_map_iff. intros (y & Ey & Hy). apply (filter_vis_spec fuel r Hl S2) in Hy. rewrite Forall_forall in Hrn. apply (Hrn y); tauto.
Qed.

Definition index_sorted (l : list field) : Prop := StronglySorted (fun x y => index_less (f_index x) (f_index y) = true) l.

Theorem select_fields_spec flds :
  (forall x, In x (select_fields flds) <-> In x flds /\ rivals x flds = 1) /\
  NoDup (map f_name (select_fields flds)) /\
  StronglySorted (fun x y => index_less (f_index y) (f_index x) = false) (select_fields flds).
Proof.
  unfold select_fields. set (l := isort field_less flds).
  assert (Hs : StronglySorted fle l) by apply sort_fields_sorted.
  assert (Hp : Permutation flds l) by apply isort_perm.
  set (less := fun x y : field => index_less (f_index x) (f_index y)).
  assert (Hq : Permutation (filter_vis (length l) l) (isort less (filter_vis (length l) l))) by apply isort_perm.
  split; [|split].
  - intros x. assert (In x (isort less (filter_vis (length l) l)) <-> In x (filter_vis (length l) l)) as ->
      by (split; apply Permutation_in; [symmetry|]; exact Hq).
    rewrite (filter_vis_spec _ _ (le_n _) Hs), <- (rivals_perm x _ _ Hp).
    split; intros [H1 H2]; (split; [|assumption]); (eapply Permutation_in; [|exact H1]); [symmetry|]; exact Hp.
  - eapply Permutation_NoDup; [apply Permutation_map, Hq|]. apply filter_vis_names; auto.
  - apply isort_sorted; unfold less.
    + intros x y H1. destruct (index_less (f_index y) (f_index x)) eqn:E; auto. pose proof (index_less_trans _ _ _ H1 E) as C. rewrite index_less_irrefl in C. discriminate.
    + intros x y z H1 H2. destruct (index_less (f_index z) (f_index x)) eqn:I; auto. exfalso.
      destruct (index_less_total (f_index x) (f_index y)) as [J | [J | J]]; [| congruence | congruence].
      pose proof (index_less_trans _ _ _ I J) as C. congruence.
Qed.
