(** From goodness of each goroutine to every execution of the machine. *)
From Coq Require Import Permutation Wf_nat.
From Verif Require Import Base IntModel JsonSpec OptionsModel EscapeModel TypesModel TypesFacts TagsModel TimeModel FloatModel LeafModel Base64Model MemModel FieldsModel InstrModel ExecModel ExecMono EntriesFacts ConcModel ConcLogic.

Definition upd {X} (f : nat -> X) (i : nat) (x : X) : nat -> X := fun j => if (j =? i)%nat then x else f j.
Lemma upd_same {X} (f : nat -> X) i x : upd f i x i = x. Proof. unfold upd. rewrite Nat.eqb_refl. reflexivity. Qed.
Lemma upd_other {X} (f : nat -> X) i x j : j <> i -> upd f i x j = f j. Proof. unfold upd. destruct (Nat.eqb_spec j i); congruence. Qed.
Lemma set_arr_same h a c : set_arr h a c a = c. Proof. unfold set_arr. rewrite Nat.eqb_refl. reflexivity. Qed.
Lemma set_arr_other h a c a' : a' <> a -> set_arr h a c a' = h a'. Proof. unfold set_arr. destruct (Nat.eqb_spec a' a); congruence. Qed.

(** ** Byte arrays: each belongs to one goroutine, to the pool, or to the user *)
Record arr_inv (S : shared) (user : list nat) (Ls : nat -> lheap) : Prop := {
  ai_heap : forall i a c, Ls i a = Some c -> (a < sh_next S)%nat /\ sh_heap S a = c;
  ai_disj : forall i j a, i <> j -> Ls i a <> None -> Ls j a = None;
  ai_pool : forall b, In b (sh_pool S) -> (s_arr b < sh_next S)%nat /\ (s_len b <= length (sh_heap S (s_arr b)))%nat /\ forall i, Ls i (s_arr b) = None;
  ai_nodup : NoDup (map s_arr (sh_pool S));
  ai_user : forall a, In a user -> (a < sh_next S)%nat /\ ~ In a (map s_arr (sh_pool S)) /\ forall i, Ls i a = None;
  ai_mels : Forall (fun l => l = []) (sh_mels S)
}.

(** The same arrays and pools. *)
Definition same_arrs (S S' : shared) : Prop := sh_heap S' = sh_heap S /\ sh_next S' = sh_next S /\ sh_pool S' = sh_pool S /\ sh_mels S' = sh_mels S.
Definition same_caches (S S' : shared) : Prop :=
  sh_icache S' = sh_icache S /\ sh_scache S' = sh_scache S /\ sh_holes S' = sh_holes S /\ sh_fcache S' = sh_fcache S /\ sh_ecache S' = sh_ecache S.

Lemma arr_inv_ext S S' u Ls Ls' : same_arrs S S' -> (forall i a, Ls' i a = Ls i a) -> arr_inv S u Ls -> arr_inv S' u Ls'.
Proof.
  intros (E1 & E2 & E3 & E4) EL [A B C D F G]. constructor; rewrite ?E1, ?E2, ?E3, ?E4; auto.
  - intros i a c. rewrite EL. apply A.
  - intros i j a. rewrite !EL. apply B.
  - intros b Hb. destruct (C b Hb) as (C1 & C2 & C3). repeat split; auto. intros i. rewrite EL. apply C3.
  - intros a Ha. destruct (F a Ha) as (F1 & F2 & F3). repeat split; auto. intros i. rewrite EL. apply F3.
Qed.

Lemma arr_set S u Ls i a c c0 : arr_inv S u Ls -> Ls i a = Some c0 -> arr_inv (with_arr S a c) u (upd Ls i (lset (Ls i) a c)).
Proof.
  intros [A B C D F G] Ha.
  assert (Hj : forall j, j <> i -> Ls j a = None) by (intros j Hj; apply (B i j a); [congruence | congruence]).
  constructor; cbn [with_arr with_heap sh_heap sh_next sh_pool sh_mels]; auto.
  - intros j a' c' Hc. destruct (Nat.eq_dec j i) as [->|Hne].
    + rewrite upd_same in Hc. destruct (Nat.eq_dec a' a) as [->|Hna].
      * rewrite lset_same in Hc. injection Hc as <-. split; [apply (A i a c0 Ha) | apply set_arr_same].
      * rewrite lset_other in Hc by assumption. rewrite set_arr_other by assumption. apply (A i a' c' Hc).
    + rewrite upd_other in Hc by assumption. rewrite set_arr_other; [apply (A j a' c' Hc)|]. intros ->. rewrite (Hj j Hne) in Hc. discriminate.
  - intros j j' a' Hne Hx.
    assert (X : Ls j a' <> None).
    { destruct (Nat.eq_dec j i) as [->|Hji]; [|rewrite upd_other in Hx by assumption; exact Hx]. rewrite upd_same in Hx.
      destruct (Nat.eq_dec a' a) as [->|Hna]; [congruence | rewrite lset_other in Hx by assumption; exact Hx]. }
    assert (Y := B j j' a' Hne X). destruct (Nat.eq_dec j' i) as [->|Hji]; [|rewrite upd_other by assumption; exact Y]. rewrite upd_same.
    destruct (Nat.eq_dec a' a) as [->|Hna]; [congruence | rewrite lset_other by assumption; exact Y].
  - intros b Hb. destruct (C b Hb) as (C1 & C2 & C3).
    assert (s_arr b <> a) by (intros X; rewrite X in C3; rewrite (C3 i) in Ha; discriminate).
    rewrite set_arr_other by assumption. repeat split; auto. intros j. destruct (Nat.eq_dec j i) as [->|Hji]; [rewrite upd_same, lset_other by assumption; apply C3 | rewrite upd_other by assumption; apply C3].
  - intros a' Ha'. destruct (F a' Ha') as (F1 & F2 & F3). repeat split; auto. intros j.
    assert (a' <> a) by (intros X; subst a'; rewrite (F3 i) in Ha; discriminate).
    destruct (Nat.eq_dec j i) as [->|Hji]; [rewrite upd_same, lset_other by assumption; apply F3 | rewrite upd_other by assumption; apply F3].
Qed.

Lemma arr_fresh S u Ls i : arr_inv S u Ls -> Ls i (sh_next S) = None.
Proof. intros [A _ _ _ _ _]. destruct (Ls i (sh_next S)) as [c|] eqn:E; [|reflexivity]. destruct (A _ _ _ E). lia. Qed.

Lemma arr_new S u Ls i c : arr_inv S u Ls -> arr_inv (with_new S c) u (upd Ls i (lset (Ls i) (sh_next S) c)).
Proof.
  intros I0. assert (Fr := fun j => arr_fresh S u Ls j I0). destruct I0 as [A B C D F G].
  assert (Lx : forall j a, a <> sh_next S -> upd Ls i (lset (Ls i) (sh_next S) c) j a = Ls j a).
  { intros j a Hna. destruct (Nat.eq_dec j i) as [->|Hji]; [rewrite upd_same, lset_other by assumption | rewrite upd_other by assumption]; reflexivity. }
  constructor; cbn [with_new with_heap sh_heap sh_next sh_pool sh_mels]; auto.
  - intros j a' c' Hc. destruct (Nat.eq_dec a' (sh_next S)) as [->|Hna].
    + destruct (Nat.eq_dec j i) as [->|Hne]; [|rewrite upd_other, Fr in Hc by assumption; discriminate].
      rewrite upd_same, lset_same in Hc. injection Hc as <-. rewrite set_arr_same. split; [lia | reflexivity].
    + rewrite Lx in Hc by assumption. rewrite set_arr_other by assumption. destruct (A j a' c' Hc). split; [lia | assumption].
  - intros j j' a' Hne Hx. destruct (Nat.eq_dec a' (sh_next S)) as [->|Hna]; [|rewrite Lx in * by assumption; eauto].
    destruct (Nat.eq_dec j i) as [->|Hji]; [rewrite upd_other by congruence; apply Fr|]. rewrite upd_other in Hx by assumption. rewrite Fr in Hx. congruence.
  - intros b Hb. destruct (C b Hb) as (C1 & C2 & C3). assert (s_arr b <> sh_next S) by lia. rewrite set_arr_other by assumption.
    repeat split; auto. intros j. rewrite Lx by assumption. apply C3.
  - intros a' Ha'. destruct (F a' Ha') as (F1 & F2 & F3). repeat split; auto. intros j. rewrite Lx by lia. apply F3.
Qed.

Lemma in_remove_mid {X} (l1 l2 : list X) b x : In x (l1 ++ l2) -> In x (l1 ++ b :: l2).
Proof. rewrite !in_app_iff. intros [Hx|Hx]; [left | right; right]; assumption. Qed.

Lemma arr_get S u Ls i l1 b l2 : arr_inv S u Ls -> sh_pool S = l1 ++ b :: l2 ->
  arr_inv (with_pool S (l1 ++ l2)) u (upd Ls i (lset (Ls i) (s_arr b) (sh_heap S (s_arr b)))).
Proof.
  intros [A B C D F G] Ep. assert (Hb : In b (sh_pool S)) by (rewrite Ep; apply in_elt). destruct (C b Hb) as (Hb1 & Hb2 & Hb3).
  assert (Lx : forall j a, a <> s_arr b -> upd Ls i (lset (Ls i) (s_arr b) (sh_heap S (s_arr b))) j a = Ls j a).
  { intros j a Hna. destruct (Nat.eq_dec j i) as [->|Hji]; [rewrite upd_same, lset_other by assumption | rewrite upd_other by assumption]; reflexivity. }
  assert (ND := D). rewrite Ep, map_app in ND. cbn [map] in ND.
  assert (Nb : ~ In (s_arr b) (map s_arr (l1 ++ l2))) by (rewrite map_app; apply NoDup_remove_2; exact ND).
  apply NoDup_remove_1 in ND. rewrite <- map_app in ND.
  constructor; cbn [with_pool sh_heap sh_next sh_pool sh_mels]; auto.
  - intros j a' c' Hc. destruct (Nat.eq_dec a' (s_arr b)) as [->|Hna].
    + destruct (Nat.eq_dec j i) as [->|Hne]; [|rewrite upd_other, Hb3 in Hc by assumption; discriminate].
      rewrite upd_same, lset_same in Hc. injection Hc as <-. auto.
    + rewrite Lx in Hc by assumption. eauto.
  - intros j j' a' Hne Hx. destruct (Nat.eq_dec a' (s_arr b)) as [->|Hna]; [|rewrite Lx in * by assumption; eauto].
    destruct (Nat.eq_dec j i) as [->|Hji]; [rewrite upd_other by congruence; apply Hb3|]. rewrite upd_other, Hb3 in Hx by assumption. congruence.
  - intros b' Hb'. assert (s_arr b' <> s_arr b). { intros X. apply Nb. rewrite <- X. apply List.in_map. exact Hb'. }
    destruct (C b') as (C1 & C2 & C3); [rewrite Ep; apply in_remove_mid; exact Hb'|]. repeat split; auto. intros j. rewrite Lx by assumption. apply C3.
  - intros a Ha. destruct (F a Ha) as (F1 & F2 & F3). rewrite Ep in F2. repeat split; auto.
    + intros X. apply F2. rewrite map_app in *. cbn [map]. apply in_remove_mid. exact X.
    + intros j. rewrite Lx; [apply F3|]. intros ->. apply F2. apply List.in_map, in_elt.
Qed.

Lemma arr_put S u Ls i s c : arr_inv S u Ls -> Ls i (s_arr s) = Some c -> (s_len s <= length c)%nat ->
  arr_inv (with_pool S (s :: sh_pool S)) u (upd Ls i (ldel (Ls i) (s_arr s))).
Proof.
  intros [A B C D F G] Hs Hl. destruct (A _ _ _ Hs) as (S1 & S2).
  assert (Gone : forall j, upd Ls i (ldel (Ls i) (s_arr s)) j (s_arr s) = None).
  { intros j. destruct (Nat.eq_dec j i) as [->|Hji]; [rewrite upd_same; apply ldel_same | rewrite upd_other by assumption; apply (B i j); congruence]. }
  assert (Lx : forall j a, a <> s_arr s -> upd Ls i (ldel (Ls i) (s_arr s)) j a = Ls j a).
  { intros j a Hna. destruct (Nat.eq_dec j i) as [->|Hji]; [rewrite upd_same, ldel_other by assumption | rewrite upd_other by assumption]; reflexivity. }
  constructor; cbn [with_pool sh_heap sh_next sh_pool sh_mels map]; auto.
  - intros j a' c' Hc. destruct (Nat.eq_dec a' (s_arr s)) as [->|Hna]; [rewrite Gone in Hc; discriminate | rewrite Lx in Hc by assumption; eauto].
  - intros j j' a' Hne Hx. destruct (Nat.eq_dec a' (s_arr s)) as [->|Hna]; [apply Gone | rewrite Lx in * by assumption; eauto].
  - intros b [<-|Hb].
    + rewrite S2. repeat split; auto.
    + destruct (C b Hb) as (C1 & C2 & C3). assert (s_arr b <> s_arr s) by (intros X; rewrite X, (C3 i) in *; congruence). repeat split; auto. intros j. rewrite Lx by assumption. apply C3.
  - constructor; [|exact D]. intros Hi. apply in_map_iff in Hi. destruct Hi as (b & X & Hb). destruct (C b Hb) as (_ & _ & C3). rewrite X, (C3 i) in *. congruence.
  - intros a Ha. destruct (F a Ha) as (F1 & F2 & F3). assert (a <> s_arr s) by (intros ->; rewrite (F3 i) in Hs; discriminate). repeat split; auto.
    + intros [X|X]; [congruence | auto].
    + intros j. rewrite Lx by assumption. apply F3.
Qed.

Section Sound.
  Variable H : host.
  Hypothesis SO : sort_ok H.

  (** ** Caches *)
  Definition Wof (S : shared) : keys := fun k => lookup_key (sh_scache S) k <> None.

  Record cache_inv (S : shared) (ow : nat -> list hold) : Prop := {
    ci_icache : cache_ok H (Wof S) (sh_icache S);
    ci_scache : forall t ca c, lookup_key (sh_scache S) (t, ca) = Some c -> den H (Wof S) c (IStruct t ca);
    ci_hole : forall k, lookup_key (sh_scache S) k <> None <-> lookup_key (sh_holes S) k <> None;
    ci_ins : forall t ca fs d, lookup_key (sh_holes S) (t, ca) = Some (mkHole (Some fs) d) -> den H (Wof S) (KStruct fs) (IStruct t ca);
    ci_done : forall k, lookup_key (sh_holes S) k <> Some (mkHole None true);
    ci_open : forall k ins, lookup_key (sh_holes S) k = Some (mkHole ins false) -> exists i f, In (k, f) (ow i);
    ci_own : forall i k f, In (k, f) (ow i) -> exists ins, lookup_key (sh_holes S) k = Some (mkHole ins false) /\ (f = true -> ins <> None);
    ci_once : forall i j k f f', In (k, f) (ow i) -> In (k, f') (ow j) -> i = j;
    ci_nodup : forall i, NoDup (map fst (ow i));
    ci_fcache : forall t fs, lookup_typ (sh_fcache S) t = Some fs -> fields_ok H t fs;
    ci_ecache : forall t e, lookup_typ (sh_ecache S) t = Some e -> e = t
  }.

  Lemma cache_inv_ext S S' ow ow' : same_caches S S' -> (forall i, ow' i = ow i) -> cache_inv S ow -> cache_inv S' ow'.
  Proof.
    intros (E1 & E2 & E3 & E4 & E5) EO [A B C D D2 F G K M N O].
    assert (EW : Wof S' = Wof S) by (unfold Wof; rewrite E2; reflexivity).
    constructor; rewrite ?EW, ?E1, ?E2, ?E3, ?E4, ?E5; auto.
    - intros k ins Hk. destruct (F k ins Hk) as (i & f & Hi). exists i, f. rewrite EO. exact Hi.
    - intros i k f. rewrite EO. apply G.
    - intros i j k f f'. rewrite !EO. apply K.
    - intros i. rewrite EO. apply M.
  Qed.

  Lemma kadd_W S k c : kincl (kadd (Wof S) k) (Wof (with_scache S ((k, c) :: sh_scache S))).
  Proof.
    intros k' [Hk| ->]; unfold Wof; cbn [with_scache sh_scache]; rewrite lookup_key_cons.
    - destruct (key_eqb k' k); [discriminate | exact Hk].
    - replace (key_eqb k k) with true by (symmetry; apply key_eqb_eq; reflexivity). discriminate.
  Qed.
  Lemma key_eqb_neq k k' : k <> k' -> key_eqb k k' = false.
  Proof. intros Hn. destruct (key_eqb k k') eqn:E; [|reflexivity]. apply key_eqb_eq in E. congruence. Qed.
  Lemma key_eqb_refl k : key_eqb k k = true.
  Proof. apply key_eqb_eq. reflexivity. Qed.
  Lemma cache_ok_mono W W' c : kincl W W' -> cache_ok H W c -> cache_ok H W' c.
  Proof. intros HW Hc t i Hl. destruct (Hc t i Hl) as (n & j & A & B). exists n, j. split; [exact A | eapply den_mono; eauto]. Qed.

  (** LoadOrStore storing a placeholder. *)
  Lemma cache_los S ow i t ca : cache_inv S ow -> lookup_key (sh_scache S) (t, ca) = None ->
    cache_inv (with_holes (with_scache S ((t, ca, KWait t ca) :: sh_scache S)) ((t, ca, mkHole None false) :: sh_holes S)) (upd ow i (((t, ca), false) :: ow i)).
  Proof.
    intros [A B C D D2 F G K M N O] Hn.
    assert (Hh : lookup_key (sh_holes S) (t, ca) = None). { destruct (lookup_key (sh_holes S) (t, ca)) eqn:E; [|reflexivity]. exfalso. apply (C (t, ca)); [rewrite E; discriminate | exact Hn]. }
    set (S' := with_holes _ _). assert (HW : kincl (Wof S) (Wof S')). { intros k Hk. apply (kadd_W S (t, ca) (KWait t ca)). left. exact Hk. }
    assert (Wk : Wof S' (t, ca)). { apply (kadd_W S (t, ca) (KWait t ca)). right. reflexivity. }
    assert (Fresh : forall j f, ~ In ((t, ca), f) (ow j)). { intros j f Hi. destruct (G j _ _ Hi) as (ins & X & _). congruence. }
    assert (InU : forall j k f, In (k, f) (upd ow i (((t, ca), false) :: ow i) j) -> (j = i /\ k = (t, ca) /\ f = false) \/ In (k, f) (ow j)).
    { intros j k f Hi. destruct (Nat.eq_dec j i) as [->|Hne]; [rewrite upd_same in Hi | rewrite upd_other in Hi by assumption; auto].
      destruct Hi as [[= <- <-]|Hi]; auto. }
    constructor; cbn [S' with_holes with_scache sh_icache sh_scache sh_holes sh_fcache sh_ecache]; auto.
    - eapply cache_ok_mono; eauto.
    - intros t' ca' c. rewrite lookup_key_cons. destruct (key_eqb (t', ca') (t, ca)) eqn:Ek.
      + intros [= <-]. apply key_eqb_eq in Ek. injection Ek as -> ->. split; [reflexivity | exact Wk].
      + intros Hc. eapply den_mono; eauto.
    - intros k. rewrite !lookup_key_cons. destruct (key_eqb k (t, ca)); [split; discriminate | apply C].
    - intros t' ca' fs d. rewrite lookup_key_cons. destruct (key_eqb (t', ca') (t, ca)); [discriminate|]. intros Hc. eapply (den_mono H (Wof S) _ HW (KStruct fs)); eauto.
    - intros k. rewrite lookup_key_cons. destruct (key_eqb k (t, ca)); [discriminate | apply D2].
    - intros k ins. rewrite lookup_key_cons. destruct (key_eqb k (t, ca)) eqn:Ek.
      + intros _. apply key_eqb_eq in Ek. subst k. exists i, false. rewrite upd_same. left. reflexivity.
      + intros Hk. destruct (F k ins Hk) as (j & f & Hi). exists j, f. destruct (Nat.eq_dec j i) as [->|Hne]; [rewrite upd_same; right; exact Hi | rewrite upd_other by assumption; exact Hi].
    - intros j k f Hi. rewrite lookup_key_cons. apply InU in Hi. destruct Hi as [(-> & -> & ->)|Hi].
      + rewrite key_eqb_refl. exists None. split; [reflexivity | discriminate].
      + rewrite key_eqb_neq; [eauto|]. intros ->. eapply Fresh; eauto.
    - intros j j' k f f' H1 H2. apply InU in H1. apply InU in H2. destruct H1 as [(-> & -> & ->)|H1], H2 as [(-> & E2 & ->)|H2]; subst; auto; try (exfalso; eapply Fresh; eauto; fail). eapply K; eauto.
    - intros j. destruct (Nat.eq_dec j i) as [->|Hne]; [|rewrite upd_other by assumption; apply M]. rewrite upd_same. cbn [map fst]. constructor; [|apply M].
      intros Hi. apply in_map_iff in Hi. destruct Hi as ([k f] & E & Hi). cbn [fst] in E. subst k. eapply Fresh; eauto.
  Qed.

  Lemma cache_set S ow i t ca fs f own d ins : cache_inv S ow -> ow i = ((t, ca), f) :: own -> den H (Wof S) (KStruct fs) (IStruct t ca) ->
    lookup_key (sh_holes S) (t, ca) = Some (mkHole ins d) ->
    cache_inv (with_holes S ((t, ca, mkHole (Some fs) d) :: sh_holes S)) (upd ow i (((t, ca), true) :: own)).
  Proof.
    intros [A B C D D2 F G K M N O] Ho Hd Hh.
    assert (d = false). { destruct (G i (t, ca) f) as (ins' & X & _); [rewrite Ho; left; reflexivity | congruence]. } subst d.
    assert (InU : forall j k f', In (k, f') (upd ow i (((t, ca), true) :: own) j) -> (j = i /\ k = (t, ca) /\ f' = true) \/ (In (k, f') (ow j) /\ k <> (t, ca))).
    { intros j k f' Hi. destruct (Nat.eq_dec j i) as [->|Hne].
      - rewrite upd_same in Hi. destruct Hi as [[= <- <-]|Hi]; auto. right. rewrite Ho. split; [right; exact Hi|]. intros ->. assert (Nd := M i). rewrite Ho in Nd. cbn [map fst] in Nd.
        inversion Nd as [|? ? N1 _]; subst. apply N1. apply in_map_iff. exists ((t, ca), f'). auto.
      - rewrite upd_other in Hi by assumption. right. split; [exact Hi|]. intros ->. apply Hne. eapply K; [exact Hi|]. rewrite Ho. left. reflexivity. }
    assert (InB : forall j k f', In (k, f') (ow j) -> exists f'', In (k, f'') (upd ow i (((t, ca), true) :: own) j)).
    { intros j k f' Hi. destruct (Nat.eq_dec j i) as [->|Hne]; [rewrite upd_same | rewrite upd_other by assumption; eauto]. rewrite Ho in Hi. destruct Hi as [[= <- <-]|Hi]; [exists true; left; reflexivity | exists f'; right; exact Hi]. }
    constructor; cbn [with_holes sh_icache sh_scache sh_holes sh_fcache sh_ecache]; auto.
    - intros k. rewrite lookup_key_cons. destruct (key_eqb k (t, ca)) eqn:Ek; [|apply C]. apply key_eqb_eq in Ek. subst k. split; [discriminate|]. intros _. apply C. congruence.
    - intros t' ca' fs' d'. rewrite lookup_key_cons. destruct (key_eqb (t', ca') (t, ca)) eqn:Ek; [|apply D]. apply key_eqb_eq in Ek. injection Ek as -> ->. intros [= -> _]. exact Hd.
    - intros k. rewrite lookup_key_cons. destruct (key_eqb k (t, ca)); [discriminate | apply D2].
    - intros k ins'. rewrite lookup_key_cons. destruct (key_eqb k (t, ca)) eqn:Ek.
      + apply key_eqb_eq in Ek. subst k. intros _. exists i, true. rewrite upd_same. left. reflexivity.
      + intros Hk. destruct (F k ins' Hk) as (j & f' & Hi). destruct (InB _ _ _ Hi) as [f'' Hi']. eauto.
    - intros j k f' Hi. rewrite lookup_key_cons. apply InU in Hi. destruct Hi as [(-> & -> & ->)|[Hi Hne]].
      + rewrite key_eqb_refl. exists (Some fs). split; [reflexivity | discriminate].
      + rewrite key_eqb_neq by assumption. eauto.
    - intros j j' k f1 f2 H1 H2. apply InU in H1. apply InU in H2. destruct H1 as [(-> & -> & ->)|[H1 E1]], H2 as [(-> & E2 & ->)|[H2 E2]]; subst; auto; try congruence. eapply K; eauto.
    - intros j. destruct (Nat.eq_dec j i) as [->|Hne]; [|rewrite upd_other by assumption; apply M]. rewrite upd_same. assert (Nd := M i). rewrite Ho in Nd. exact Nd.
  Qed.

  Lemma cache_done S ow i t ca own d ins : cache_inv S ow -> ow i = ((t, ca), true) :: own ->
    lookup_key (sh_holes S) (t, ca) = Some (mkHole ins d) ->
    cache_inv (with_holes S ((t, ca, mkHole ins true) :: sh_holes S)) (upd ow i own).
  Proof.
    intros [A B C D D2 F G K M N O] Ho Hh.
    assert (Hins : exists fs, ins = Some fs).
    { destruct (G i (t, ca) true) as (ins' & X & Y); [rewrite Ho; left; reflexivity|]. rewrite Hh in X. injection X as -> ->. destruct ins' as [fs|]; [eauto | exfalso; apply Y; reflexivity]. }
    destruct Hins as [fs ->].
    assert (InU : forall j k f', In (k, f') (upd ow i own j) -> In (k, f') (ow j) /\ k <> (t, ca)).
    { intros j k f' Hi. destruct (Nat.eq_dec j i) as [->|Hne].
      - rewrite upd_same in Hi. rewrite Ho. split; [right; exact Hi|]. intros ->. assert (Nd := M i). rewrite Ho in Nd. cbn [map fst] in Nd.
        inversion Nd as [|? ? N1 _]; subst. apply N1. apply in_map_iff. exists ((t, ca), f'). auto.
      - rewrite upd_other in Hi by assumption. split; [exact Hi|]. intros ->. apply Hne. eapply K; [exact Hi|]. rewrite Ho. left. reflexivity. }
    constructor; cbn [with_holes sh_icache sh_scache sh_holes sh_fcache sh_ecache]; auto.
    - intros k. rewrite lookup_key_cons. destruct (key_eqb k (t, ca)) eqn:Ek; [|apply C]. apply key_eqb_eq in Ek. subst k. split; [discriminate|]. intros _. apply C. congruence.
    - intros t' ca' fs' d'. rewrite lookup_key_cons. destruct (key_eqb (t', ca') (t, ca)) eqn:Ek; [|apply D]. apply key_eqb_eq in Ek. injection Ek as -> ->. intros [= -> _]. eapply D; eauto.
    - intros k. rewrite lookup_key_cons. destruct (key_eqb k (t, ca)); [discriminate | apply D2].
    - intros k ins'. rewrite lookup_key_cons. destruct (key_eqb k (t, ca)) eqn:Ek; [discriminate|].
      intros Hk. destruct (F k ins' Hk) as (j & f' & Hi). exists j, f'. destruct (Nat.eq_dec j i) as [->|Hne]; [rewrite upd_same | rewrite upd_other by assumption; exact Hi].
      rewrite Ho in Hi. destruct Hi as [[= <- <-]|Hi]; [rewrite key_eqb_refl in Ek; discriminate | exact Hi].
    - intros j k f' Hi. rewrite lookup_key_cons. apply InU in Hi. destruct Hi as [Hi Hne]. rewrite key_eqb_neq by assumption. eauto.
    - intros j j' k f1 f2 H1 H2. apply InU in H1. apply InU in H2. eapply K; [apply H1 | apply H2].
    - intros j. destruct (Nat.eq_dec j i) as [->|Hne]; [|rewrite upd_other by assumption; apply M]. rewrite upd_same. assert (Nd := M i). rewrite Ho in Nd. inversion Nd; assumption.
  Qed.

  Lemma cache_store S ow t ca c : cache_inv S ow -> Wof S (t, ca) -> den H (Wof S) c (IStruct t ca) ->
    cache_inv (with_scache S ((t, ca, c) :: sh_scache S)) ow.
  Proof.
    intros [A B C D D2 F G K M N O] Hw Hd. set (S' := with_scache _ _). assert (HW : kincl (Wof S) (Wof S')). { intros k Hk. apply (kadd_W S (t, ca) c). left. exact Hk. }
    constructor; cbn [S' with_scache sh_icache sh_scache sh_holes sh_fcache sh_ecache]; auto.
    - eapply cache_ok_mono; eauto.
    - intros t' ca' c'. rewrite lookup_key_cons. destruct (key_eqb (t', ca') (t, ca)) eqn:Ek.
      + intros [= <-]. apply key_eqb_eq in Ek. injection Ek as -> ->. eapply den_mono; eauto.
      + intros Hc. eapply den_mono; eauto.
    - intros k. rewrite lookup_key_cons. destruct (key_eqb k (t, ca)) eqn:Ek; [|apply C]. apply key_eqb_eq in Ek. subst k. split; [intros _; apply C; exact Hw | discriminate].
    - intros t' ca' fs d Hc. eapply (den_mono H (Wof S) _ HW (KStruct fs)); eauto.
  Qed.

  (** ** One action *)
  Lemma lread_ok S u Ls i r : arr_inv S u Ls -> readable (Ls i) r -> lread (Ls i) r = read_sub (sh_heap S) r.
  Proof.
    intros I0 Hr. unfold readable in Hr. unfold lread, read_sub. destruct (Ls i (r_arr r)) as [c|] eqn:E; [|congruence]. rewrite (proj2 (ai_heap _ _ _ I0 _ _ _ E)). reflexivity.
  Qed.
  Lemma lread_kvs S u Ls i l : arr_inv S u Ls -> Forall (fun kv => readable (Ls i) (fst kv) /\ readable (Ls i) (snd kv)) l -> map (lread_kv (Ls i)) l = map (read_kv (sh_heap S)) l.
  Proof.
    intros I0 Hf. apply map_ext_Forall. eapply Forall_impl; [|exact Hf]. intros [a b] [A B]. unfold lread_kv, read_kv. cbn [fst snd] in *. rewrite !(lread_ok S u Ls i) by assumption. reflexivity.
  Qed.

  Lemma lappend_sound S u Ls i s b S' s' : arr_inv S u Ls -> owned (Ls i) s -> append_to S s b S' s' ->
    exists L', lappend (Ls i) s b L' s' /\ arr_inv S' u (upd Ls i L') /\ same_caches S S'.
  Proof.
    intros I0 (c & Hc & Hl) Ha. destruct (ai_heap _ _ _ I0 _ _ _ Hc) as [_ Hh].
    inversion Ha as [Hf X Y|junk Hf X Y]; subst S' s'; rewrite Hh in *.
    - eexists. split; [eapply la_fits; [exact Hc | lia]|]. split; [eapply arr_set; eauto | repeat split].
    - eexists. split; [eapply (la_grow _ _ _ c (sh_next S) junk); [exact Hc | eapply arr_fresh; eauto]|]. split; [apply arr_new; exact I0 | repeat split].
  Qed.

  Lemma upd_ext {X} (f : nat -> X) i j : upd f i (f i) j = f j.
  Proof. destruct (Nat.eq_dec j i) as [->|Hn]; [apply upd_same | apply upd_other; assumption]. Qed.

  Definition sound_at (S : shared) (u : list nat) (Ls : nat -> lheap) (ow : nat -> list hold) (i : nat) (o : op) (S' : shared) (x : answer) : Prop :=
    exists W' own' L', astep H (Wof S) (ow i) (Ls i) o W' own' L' x /\ kincl W' (Wof S') /\ kincl (Wof S) (Wof S') /\
      arr_inv S' u (upd Ls i L') /\ cache_inv S' (upd ow i own').

  Lemma sound_arr S u Ls ow i o S' x L' : cache_inv S ow -> astep H (Wof S) (ow i) (Ls i) o (Wof S) (ow i) L' x ->
    arr_inv S' u (upd Ls i L') -> same_caches S S' -> sound_at S u Ls ow i o S' x.
  Proof.
    intros CI Ha AI SC. exists (Wof S), (ow i), L'. assert (EW : Wof S' = Wof S) by (unfold Wof; destruct SC as (_ & -> & _); reflexivity).
    rewrite EW. split; [exact Ha|]. split; [apply kincl_refl|]. split; [apply kincl_refl|]. split; [exact AI|]. eapply cache_inv_ext; [exact SC | | exact CI]. intros j. apply upd_ext.
  Qed.
  Lemma sound_same S u Ls ow i o S' x : arr_inv S u Ls -> cache_inv S ow -> astep H (Wof S) (ow i) (Ls i) o (Wof S) (ow i) (Ls i) x ->
    same_arrs S S' -> same_caches S S' -> sound_at S u Ls ow i o S' x.
  Proof.
    intros AI CI Ha SA SC. eapply sound_arr; eauto. eapply arr_inv_ext; [exact SA | | exact AI]. intros j a. rewrite (upd_ext Ls). reflexivity.
  Qed.
  Lemma sound_cache S u Ls ow i o S' x W' own' : arr_inv S u Ls -> astep H (Wof S) (ow i) (Ls i) o W' own' (Ls i) x ->
    same_arrs S S' -> kincl W' (Wof S') -> kincl (Wof S) (Wof S') -> cache_inv S' (upd ow i own') -> sound_at S u Ls ow i o S' x.
  Proof.
    intros AI Ha SA K1 K2 CI. exists W', own', (Ls i). split; [exact Ha|]. split; [exact K1|]. split; [exact K2|]. split; [|exact CI]. eapply arr_inv_ext; [exact SA | | exact AI]. intros j a. rewrite (upd_ext Ls). reflexivity.
  Qed.
  Lemma upd_cache S S' ow i : cache_inv S' ow -> same_caches S' S -> cache_inv S (upd ow i (ow i)).
  Proof. intros CI SC. eapply cache_inv_ext; [exact SC | | exact CI]. intros j. apply upd_ext. Qed.

  Theorem op_sound S u Ls ow i o S' x : arr_inv S u Ls -> cache_inv S ow -> safe H (Wof S) (ow i) (Ls i) o -> opstep H S o S' x ->
    sound_at S u Ls ow i o S' x.
  Proof.
    intros AI CI Hs Hst. assert (SA0 : same_arrs S S) by (repeat split). assert (SC0 : same_caches S S) by (repeat split).
    assert (AH := ai_heap _ _ _ AI). inversion Hst; subst; cbn [safe] in Hs.
    - (* append *) destruct (lappend_sound _ _ _ _ _ _ _ _ AI Hs H0) as (L' & A & B & C). eapply sound_arr; eauto. constructor. exact A.
    - (* append sub *) destruct Hs as [Hs Hr]. rewrite <- (lread_ok S u Ls i) in H0 by assumption.
      destruct (lappend_sound _ _ _ _ _ _ _ _ AI Hs H0) as (L' & A & B & C). eapply sound_arr; eauto. constructor. exact A.
    - (* make *) eapply sound_arr; [exact CI | apply (a_make H _ _ _ n (sh_next S)); eapply arr_fresh; eauto | apply arr_new; exact AI | repeat split].
    - (* copy *) destruct Hs as [(cd & Hd & _) (cs & Hc & _)]. eapply sound_arr; [exact CI | eapply a_copy; eauto | | repeat split].
      rewrite (proj2 (AH _ _ _ Hd)), (proj2 (AH _ _ _ Hc)). eapply arr_set; eauto.
    - (* write *) destruct Hs as [(c & Hc & _) _]. eapply sound_arr; [exact CI | eapply a_write; eauto | | repeat split]. rewrite (proj2 (AH _ _ _ Hc)). eapply arr_set; eauto.
    - (* cap *) destruct Hs as (c & Hc & _). eapply sound_same; eauto. rewrite (proj2 (AH _ _ _ Hc)). constructor. exact Hc.
    - (* read *) destruct Hs as (c & Hc & _). eapply sound_same; eauto. rewrite (proj2 (AH _ _ _ Hc)). constructor. exact Hc.
    - (* spoil *) destruct Hs as (c & Hc & _). rewrite (proj2 (AH _ _ _ Hc)) in *. eapply sound_arr; [exact CI | eapply a_spoil; eauto | eapply arr_set; eauto | repeat split].
    - (* user, in place *) destruct Hs as (c & Hc & _). rewrite (proj2 (AH _ _ _ Hc)) in *. eapply sound_arr; [exact CI | eapply a_user_in; eauto | eapply arr_set; eauto | repeat split].
    - (* user, moved *) destruct Hs as (c & Hc & _). rewrite (proj2 (AH _ _ _ Hc)) in *.
      set (c1 := firstn (s_len s) c ++ junk). assert (A1 := arr_set _ _ _ i (s_arr s) c1 c AI Hc).
      assert (A2 := arr_new _ _ _ i (firstn (s_len s) c ++ b ++ junk') A1). cbn [with_arr with_heap sh_next] in A2. rewrite upd_same in A2.
      eapply sound_arr; [exact CI | eapply (a_user_new H _ _ _ s b c (sh_next S)); eauto; eapply arr_fresh; eauto | | repeat split].
      eapply arr_inv_ext; [repeat split | | exact A2]. intros j a. destruct (Nat.eq_dec j i) as [->|Hn]; [rewrite !upd_same | rewrite !upd_other by assumption]; reflexivity.
    - (* pieces *) eapply sound_same; eauto. constructor. reflexivity.
    - (* get none *) eapply sound_same; eauto. constructor.
    - (* get *) assert (Hb : In b (sh_pool S)) by (rewrite H0; apply in_elt). destruct (ai_pool _ _ _ AI _ Hb) as (P1 & P2 & P3).
      eapply sound_arr; [exact CI | eapply a_get_some; [apply P3 | exact P2] | eapply arr_get; eauto | repeat split].
    - (* put *) destruct Hs as (c & Hc & Hl). eapply sound_arr; [exact CI | constructor | eapply arr_put; eauto | repeat split].
    - eapply sound_same; eauto. constructor.
    - (* mel *) assert (M := ai_mels _ _ _ AI). rewrite H0 in M. apply Forall_app in M. destruct M as [M1 M2]. inversion M2 as [|? ? M3 M4]; subst.
      eapply sound_arr; [exact CI | constructor | | repeat split]. assert (AI' := AI). destruct AI'. constructor; cbn [with_mels sh_heap sh_next sh_pool sh_mels]; auto.
      + intros j a c. rewrite (upd_ext Ls). eauto.
      + intros j j' a. rewrite !(upd_ext Ls). eauto.
      + intros b Hb. destruct (ai_pool0 b Hb) as (P1 & P2 & P3). repeat split; auto. intros j. rewrite (upd_ext Ls). auto.
      + intros a Ha. destruct (ai_user0 a Ha) as (P1 & P2 & P3). repeat split; auto. intros j. rewrite (upd_ext Ls). auto.
      + apply Forall_app. split; assumption.
    - (* put mel *) eapply sound_arr; [exact CI | constructor | | repeat split]. assert (AI' := AI). destruct AI'. constructor; cbn [with_mels sh_heap sh_next sh_pool sh_mels]; auto.
      + intros j a c. rewrite (upd_ext Ls). eauto.
      + intros j j' a. rewrite !(upd_ext Ls). eauto.
      + intros b' Hb. destruct (ai_pool0 b' Hb) as (P1 & P2 & P3). repeat split; auto. intros j. rewrite (upd_ext Ls). auto.
      + intros a Ha. destruct (ai_user0 a Ha) as (P1 & P2 & P3). repeat split; auto. intros j. rewrite (upd_ext Ls). auto.
    - eapply sound_same; eauto. constructor.
    - eapply sound_same; eauto. constructor.
    - eapply sound_same; eauto. constructor.
    - (* sort *) assert (Hs' : Forall (fun kv => readable (Ls i) (fst kv) /\ readable (Ls i) (snd kv)) l') by (eapply Permutation_Forall; eauto).
      eapply sound_same; eauto. constructor; [assumption|]. rewrite !(lread_kvs S' u Ls i) by assumption. assumption.
    - eapply sound_same; eauto. constructor. apply CI.
    - (* store cache *) eapply (sound_cache S u Ls ow i _ _ _ (Wof S) (ow i)); [exact AI | constructor | repeat split | apply kincl_refl | apply kincl_refl | ].
      eapply upd_cache; [|repeat split]. assert (CI' := CI). destruct CI'. constructor; auto.
    - (* load struct *) eapply sound_same; eauto. destruct (lookup_key (sh_scache S') (t, ca)) as [c|] eqn:El; constructor; [unfold Wof; congruence | eapply ci_scache; eauto].
    - (* load or store, loaded *) eapply sound_same; eauto. constructor; [unfold Wof; congruence | eapply ci_scache; eauto].
    - (* stored *) eapply (sound_cache S u Ls ow i _ _ _ (kadd (Wof S) (t, ca)) (((t, ca), false) :: ow i)); [exact AI | | | | | ].
      + constructor. unfold Wof. intros X. apply X. assumption.
      + repeat split.
      + intros k Hk. apply (kadd_W S (t, ca) (KWait t ca)). exact Hk.
      + intros k Hk. apply (kadd_W S (t, ca) (KWait t ca)). left. exact Hk.
      + apply cache_los; assumption.
    - (* set ins *) destruct Hs as [(f & own' & Ho) Hd]. eapply (sound_cache S u Ls ow i _ _ _ (Wof S)); [exact AI | eapply a_set_ins; exact Ho | repeat split | apply kincl_refl | apply kincl_refl | eapply cache_set; eauto].
    - (* done *) destruct Hs as (own' & Ho). eapply (sound_cache S u Ls ow i _ _ _ (Wof S)); [exact AI | eapply a_done; exact Ho | repeat split | apply kincl_refl | apply kincl_refl | eapply cache_done; eauto].
    - (* store struct *) destruct Hs as [Hw Hd]. eapply (sound_cache S u Ls ow i _ _ _ (Wof S) (ow i)); [exact AI | constructor | repeat split | | | ].
      + intros k Hk. apply (kadd_W S (t, ca) c). left. exact Hk.
      + intros k Hk. apply (kadd_W S (t, ca) c). left. exact Hk.
      + eapply upd_cache; [eapply cache_store; eauto | repeat split].
    - (* wait *) eapply sound_same; eauto. constructor. eapply ci_ins; eauto.
    - eapply sound_same; eauto. destruct (lookup_typ (sh_fcache S') t) as [fs|] eqn:El; constructor. eapply ci_fcache; eauto.
    - eapply sound_same; eauto. constructor. eapply ci_fcache; eauto.
    - (* store fields *) eapply (sound_cache S u Ls ow i _ _ _ (Wof S) (ow i)); [exact AI | constructor; exact Hs | repeat split | apply kincl_refl | apply kincl_refl | ].
      eapply upd_cache; [|repeat split]. assert (CI' := CI). destruct CI'. constructor; auto. cbn [with_fcache sh_fcache]. intros t' fs'. rewrite lookup_typ_cons. destruct (typ_eqb t' t) eqn:Et; [|auto].
      apply typ_eqb_eq in Et. subst t'. intros [= <-]. exact Hs.
    - eapply sound_same; eauto. destruct (lookup_typ (sh_ecache S') t) as [e|] eqn:El; [|constructor]. apply (ci_ecache _ _ CI) in El. subst e. constructor.
    - eapply sound_same; eauto. rewrite (ci_ecache _ _ CI _ _ H0). constructor.
    - (* store empty *) subst e. eapply (sound_cache S u Ls ow i _ _ _ (Wof S) (ow i)); [exact AI | constructor | repeat split | apply kincl_refl | apply kincl_refl | ].
      eapply upd_cache; [|repeat split]. assert (CI' := CI). destruct CI'. constructor; auto. cbn [with_ecache sh_ecache]. intros t' e'. rewrite lookup_typ_cons. destruct (typ_eqb t' t) eqn:Et; [|auto].
      apply typ_eqb_eq in Et. subst t'. intros [= <-]. reflexivity.
    - eapply sound_same; eauto. constructor. eexists. eassumption.
    - eapply sound_same; eauto. econstructor. eassumption.
  Qed.
End Sound.
