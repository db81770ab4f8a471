(** Every execution of the machine: invariant, results, progress, termination. *)
From Coq Require Import Permutation.
From Verif Require Import Base IntModel JsonSpec OptionsModel EscapeModel TypesModel TypesFacts TagsModel TimeModel FloatModel LeafModel Base64Model MemModel FieldsModel InstrModel ExecModel ExecMono EntriesFacts ConcModel ConcLogic ConcSound.

Definition set_nth {X} (l : list X) (i : nat) (x : X) : list X := firstn i l ++ x :: skipn (S i) l.
Lemma nth_set {X} (l : list X) : forall i x j, (i < length l)%nat -> nth_error (set_nth l i x) j = if (j =? i)%nat then Some x else nth_error l j.
Proof.
  unfold set_nth. induction l as [|y l IH]; intros i x j Hi; [cbn in Hi; lia|]. destruct i as [|i].
  - cbn [firstn skipn app]. destruct j; reflexivity.
  - cbn [firstn skipn app length] in *. destruct j; [reflexivity|]. cbn [nth_error Nat.eqb]. apply IH. lia.
Qed.
Lemma set_nth_length {X} (l : list X) i x : (i < length l)%nat -> length (set_nth l i x) = length l.
Proof. intros Hi. unfold set_nth. rewrite app_length. cbn [length]. rewrite firstn_length, skipn_length. lia. Qed.
Lemma nth_some {X} (l : list X) i x : nth_error l i = Some x -> (i < length l)%nat.
Proof. intros Hn. apply nth_error_Some. congruence. Qed.

Section Global.
  Variable H : host.
  Hypothesis SO : sort_ok H.
  Variable starts : gcall -> Prop.
  Variable Qc : gcall -> post cres.
  Hypothesis QM : forall c, qmono (Qc c).
  Hypothesis QR : forall c r W own L, Qc c (Some r) W own L -> own = [] /\ forall a, In a (returned r ++ lent c) -> L a <> None.
  Hypothesis QP : forall c W own L, Qc c None W own L -> own = [] /\ forall a, In a (lent c) -> L a <> None.

  (** The arrays a call starts with. *)
  Definition call_heap (c : gcall) (L : lheap) : Prop :=
    match c with
    | GMarshal _ _ _ => L = lnone
    | GAppend _ s d _ _ => exists a, L = lset lnone (s_arr s) a /\ (s_len s <= length a)%nat /\ d = firstn (s_len s) a
    end.
  Hypothesis START : forall c W L, starts c -> call_heap c L -> good H (Qc c) W [] L (call_of H c).

  Definition thr_ok (S : shared) (thr : list (gcall * status)) (ow : nat -> list hold) (Ls : nat -> lheap) : Prop :=
    forall i, match nth_error thr i with
              | Some (c, Running p) => good H (Qc c) (Wof S) (ow i) (Ls i) p
              | _ => ow i = [] /\ forall a, Ls i a = None
              end.
  Record inv (g : gst) (ow : nat -> list hold) (Ls : nat -> lheap) : Prop := {
    in_arr : arr_inv (g_sh g) (g_user g) Ls;
    in_cache : cache_inv H (g_sh g) ow;
    in_thr : thr_ok (g_sh g) (g_thr g) ow Ls
  }.

  Lemma inv_init : inv g_init (fun _ => []) (fun _ => lnone).
  Proof.
    constructor; cbn [g_init g_sh g_user g_thr].
    - constructor; cbn; intros; try discriminate; try contradiction; auto; constructor.
    - constructor; cbn; intros; try discriminate; try contradiction; try tauto; auto; try constructor.
    - intros i. destruct i; cbn; split; reflexivity.
  Qed.

  Lemma idle_thr S thr ow Ls i : thr_ok S thr ow Ls -> (length thr <= i)%nat -> ow i = [] /\ forall a, Ls i a = None.
  Proof. intros Ht Hi. assert (X := Ht i). apply nth_error_None in Hi. rewrite Hi in X. exact X. Qed.

  (** A new goroutine. *)
  Lemma thr_start S thr ow Ls c L : thr_ok S thr ow Ls -> good H (Qc c) (Wof S) [] L (call_of H c) ->
    thr_ok S (thr ++ [(c, Running (call_of H c))]) ow (upd Ls (length thr) L).
  Proof.
    intros Ht Hg i. destruct (Nat.eq_dec i (length thr)) as [->|Hne].
    - rewrite nth_error_app2, Nat.sub_diag by lia. cbn [nth_error]. rewrite upd_same. rewrite (proj1 (idle_thr _ _ _ _ _ Ht (Nat.le_refl _))). exact Hg.
    - rewrite upd_other by assumption. assert (X := Ht i). destruct (Nat.lt_ge_cases i (length thr)) as [Hl|Hl].
      + rewrite nth_error_app1 by assumption. exact X.
      + replace (nth_error (thr ++ [(c, Running (call_of H c))]) i) with (@None (gcall * status)); [apply (idle_thr _ _ _ _ _ Ht Hl)|].
        symmetry. apply nth_error_None. rewrite app_length. cbn [length]. lia.
  Qed.

  Lemma thr_other S S' thr ow Ls i c st own' L' : thr_ok S thr ow Ls -> kincl (Wof S) (Wof S') -> (i < length thr)%nat ->
    match st with Running p => good H (Qc c) (Wof S') own' L' p | _ => own' = [] /\ forall a, L' a = None end ->
    thr_ok S' (set_thr thr i (c, st)) (upd ow i own') (upd Ls i L').
  Proof.
    intros Ht HW Hi Hst j. change (set_thr thr i (c, st)) with (set_nth thr i (c, st)). rewrite nth_set by assumption. destruct (Nat.eqb_spec j i) as [->|Hne].
    - rewrite !upd_same. destruct st; exact Hst.
    - rewrite !upd_other by assumption. assert (X := Ht j). destruct (nth_error thr j) as [[c' [p|r|]]|]; auto. eapply good_mono; eauto.
  Qed.

  Lemma thr_shared S S' thr ow Ls : thr_ok S thr ow Ls -> Wof S' = Wof S -> thr_ok S' thr ow Ls.
  Proof. intros Ht HW j. assert (X := Ht j). rewrite HW. exact X. Qed.

  Lemma own_drop S ow i : cache_inv H S ow -> ow i = [] -> cache_inv H S (upd ow i []).
  Proof. intros CI Ho. eapply cache_inv_ext; [| |exact CI]; [repeat split|]. intros j. rewrite <- Ho. apply upd_ext. Qed.

  (** A goroutine that ends hands its arrays over. *)
  Lemma arr_end S u Ls i l : arr_inv S u Ls -> (forall a, In a l -> Ls i a <> None) -> arr_inv S (l ++ u) (upd Ls i lnone).
  Proof.
    intros [A B C D F G] Hl.
    assert (Lx : forall j a, Ls j a = None -> upd Ls i lnone j a = None).
    { intros j a Hn. destruct (Nat.eq_dec j i) as [->|Hne]; [rewrite upd_same; reflexivity | rewrite upd_other by assumption; exact Hn]. }
    constructor; auto.
    - intros j a c Hc. destruct (Nat.eq_dec j i) as [->|Hne]; [rewrite upd_same in Hc; discriminate | rewrite upd_other in Hc by assumption; eauto].
    - intros j j' a Hne Hx. destruct (Nat.eq_dec j i) as [->|Hji]; [rewrite upd_same in Hx; exfalso; apply Hx; reflexivity|]. rewrite upd_other in Hx by assumption. apply Lx. eauto.
    - intros b Hb. destruct (C b Hb) as (C1 & C2 & C3). repeat split; auto.
    - intros a Ha. apply in_app_iff in Ha. destruct Ha as [Ha|Ha].
      + specialize (Hl a Ha). destruct (Ls i a) as [c|] eqn:E; [|congruence]. destruct (A _ _ _ E) as [A1 A2]. split; [exact A1|]. split.
        * intros X. apply in_map_iff in X. destruct X as (b & E2 & Hb). destruct (C b Hb) as (_ & _ & C3). specialize (C3 i). rewrite E2 in C3. congruence.
        * intros j. destruct (Nat.eq_dec j i) as [->|Hne]; [rewrite upd_same; reflexivity | rewrite upd_other by assumption; apply (B i j); congruence].
      + destruct (F a Ha) as (F1 & F2 & F3). repeat split; auto.
  Qed.

  (** A goroutine that borrows an array of the user. *)
  Lemma arr_lend S u Ls i a : arr_inv S u Ls -> In a u -> (forall a, Ls i a = None) -> arr_inv S (remove Nat.eq_dec a u) (upd Ls i (lset lnone a (sh_heap S a))).
  Proof.
    intros [A B C D F G] Ha Hn. destruct (F a Ha) as (F1 & F2 & F3).
    assert (Lx : forall j a', a' <> a -> upd Ls i (lset lnone a (sh_heap S a)) j a' = Ls j a').
    { intros j a' Hne. destruct (Nat.eq_dec j i) as [->|Hji]; [rewrite upd_same, lset_other, Hn by assumption; reflexivity | rewrite upd_other by assumption; reflexivity]. }
    assert (Lo : forall j, j <> i -> upd Ls i (lset lnone a (sh_heap S a)) j a = None) by (intros j Hj; rewrite upd_other by assumption; apply F3).
    constructor; auto.
    - intros j a' c Hc. destruct (Nat.eq_dec a' a) as [->|Hne]; [|rewrite Lx in Hc by assumption; eauto]. destruct (Nat.eq_dec j i) as [->|Hji]; [|rewrite Lo in Hc by assumption; discriminate].
      rewrite upd_same, lset_same in Hc. injection Hc as <-. auto.
    - intros j j' a' Hne Hx. destruct (Nat.eq_dec a' a) as [->|Hna]; [|rewrite Lx in * by assumption; eauto]. destruct (Nat.eq_dec j i) as [->|Hji]; [|rewrite Lo in Hx by assumption; congruence]. apply Lo. congruence.
    - intros b Hb. destruct (C b Hb) as (C1 & C2 & C3). assert (s_arr b <> a). { intros X. apply F2. rewrite <- X. apply List.in_map. exact Hb. }
      repeat split; auto. intros j. rewrite Lx by assumption. apply C3.
    - intros a' Ha'. apply in_remove in Ha'. destruct Ha' as [Ha' Hne]. destruct (F a' Ha') as (G1 & G2 & G3). repeat split; auto. intros j. rewrite Lx by assumption. apply G3.
  Qed.

  (** What the invariant says of a thread that takes a step. *)
  Lemma inv_act g ow Ls i c p S' p' : inv g ow Ls -> nth_error (g_thr g) i = Some (c, Running p) -> tstep H (g_sh g) p S' p' ->
    exists own' L', inv (mkG S' (g_user g) (set_thr (g_thr g) i (c, Running p'))) (upd ow i own') (upd Ls i L') /\ kincl (Wof (g_sh g)) (Wof S') /\
      match p with
      | POp o k => exists W' x, astep H (Wof (g_sh g)) (ow i) (Ls i) o W' own' L' x /\ kincl W' (Wof S') /\ p' = k x
      | PBuild t ca q k => own' = ow i /\ L' = Ls i /\ p' = pbind (build_body H t ca q) k
      | PRun o m c p s k => own' = ow i /\ L' = Ls i /\ p' = pbind (run_body H o m c p s) k
      | _ => False
      end.
  Proof.
    intros [AI CI TI] Hn Hst. assert (Hi := nth_some _ _ _ Hn). assert (T := TI i). rewrite Hn in T.
    inversion Hst; subst.
    - inversion T as [| |W own L o' k' Hs Hk| | ]; subst. destruct (op_sound H _ _ _ _ _ _ _ _ AI CI Hs H0) as (W' & own' & L' & A & K1 & K2 & A2 & C2).
      exists own', L'. split; [|split; [exact K2 | exists W', x; auto]]. constructor; cbn [g_sh g_user g_thr]; auto. eapply thr_other; eauto. eapply good_mono; [apply QM | | exact K1]. eapply Hk; [apply kincl_refl | exact A].
    - inversion T as [| | |W own L t' ca' q' k' Hk| ]; subst. exists (ow i), (Ls i). split; [|auto]. constructor; cbn [g_sh g_user g_thr].
      + eapply arr_inv_ext; [| |exact AI]; [repeat split|]. intros j a. rewrite (upd_ext Ls). reflexivity.
      + eapply cache_inv_ext; [| |exact CI]; [repeat split|]. intros j. apply upd_ext.
      + eapply thr_other; eauto.
    - inversion T as [| | | |W own L o' m' c' p' s' k' Hk]; subst. exists (ow i), (Ls i). split; [|auto]. constructor; cbn [g_sh g_user g_thr].
      + eapply arr_inv_ext; [| |exact AI]; [repeat split|]. intros j a. rewrite (upd_ext Ls). reflexivity.
      + eapply cache_inv_ext; [| |exact CI]; [repeat split|]. intros j. apply upd_ext.
      + eapply thr_other; eauto.
  Qed.

  Lemma inv_finish g ow Ls i c r : inv g ow Ls -> nth_error (g_thr g) i = Some (c, Running (PRet r)) ->
    inv (mkG (g_sh g) (returned r ++ lent c ++ g_user g) (set_thr (g_thr g) i (c, Finished r))) (upd ow i []) (upd Ls i lnone) /\
    Qc c (Some r) (Wof (g_sh g)) [] (Ls i).
  Proof.
    intros [AI CI TI] Hn. assert (Hi := nth_some _ _ _ Hn). assert (T := TI i). rewrite Hn in T. inversion T as [W own L x HQx| | | | ]; subst. destruct (QR _ _ _ _ _ HQx) as [Ho Hl]. rewrite Ho in *. split; [|assumption].
    constructor; cbn [g_sh g_user g_thr].
    - rewrite app_assoc. apply arr_end; assumption.
    - apply own_drop; assumption.
    - eapply thr_other; eauto; split; reflexivity.
  Qed.

  Lemma inv_panic g ow Ls i c : inv g ow Ls -> nth_error (g_thr g) i = Some (c, Running PPanic) ->
    inv (mkG (g_sh g) (lent c ++ g_user g) (set_thr (g_thr g) i (c, Panicked))) (upd ow i []) (upd Ls i lnone) /\
    Qc c None (Wof (g_sh g)) [] (Ls i).
  Proof.
    intros [AI CI TI] Hn. assert (Hi := nth_some _ _ _ Hn). assert (T := TI i). rewrite Hn in T. inversion T as [ |W own L HQx| | | ]; subst. destruct (QP _ _ _ _ HQx) as [Ho Hl]. rewrite Ho in *. split; [|assumption].
    constructor; cbn [g_sh g_user g_thr].
    - apply arr_end; assumption.
    - apply own_drop; assumption.
    - eapply thr_other; eauto; split; reflexivity.
  Qed.

  Lemma inv_step g ow Ls l g' : inv g ow Ls -> gstep H starts g l g' -> exists ow' Ls', inv g' ow' Ls'.
  Proof.
    intros I0 Hst. assert (I1 := I0). destruct I1 as [AI CI TI]. inversion Hst; subst.
    - (* alloc *) exists ow, Ls. constructor; cbn [g_sh g_user g_thr].
      + destruct AI as [A B C D F G]. constructor; cbn [with_new with_heap sh_heap sh_next sh_pool sh_mels]; auto.
        * intros j a c' Hc. destruct (A j a c' Hc). rewrite set_arr_other by lia. split; [lia | assumption].
        * intros b Hb. destruct (C b Hb) as (C1 & C2 & C3). rewrite set_arr_other by lia. repeat split; auto.
        * intros a [<-|Ha].
          -- split; [lia|]. split.
             ++ intros X. apply in_map_iff in X. destruct X as (b & E & Hb). destruct (C b Hb) as (C1 & _). lia.
             ++ intros j. destruct (Ls j (sh_next (g_sh g))) eqn:E; [|reflexivity]. destruct (A _ _ _ E). lia.
          -- destruct (F a Ha) as (F1 & F2 & F3). repeat split; auto.
      + eapply cache_inv_ext; [| |exact CI]; [repeat split | reflexivity].
      + eapply thr_shared; [exact TI | reflexivity].
    - (* write *) exists ow, Ls. constructor; cbn [g_sh g_user g_thr].
      + destruct AI as [A B C D F G]. destruct (F a H0) as (F1 & F2 & F3). constructor; cbn [with_arr with_heap sh_heap sh_next sh_pool sh_mels]; auto.
        * intros j a' c' Hc. rewrite set_arr_other; [eauto|]. intros ->. rewrite F3 in Hc. discriminate.
        * intros b Hb. destruct (C b Hb) as (C1 & C2 & C3). rewrite set_arr_other; [repeat split; auto|]. intros X. apply F2. rewrite <- X. apply List.in_map. exact Hb.
      + eapply cache_inv_ext; [| |exact CI]; [repeat split | reflexivity].
      + eapply thr_shared; [exact TI | reflexivity].
    - (* marshal *) exists ow, (upd Ls (length (g_thr g)) lnone). constructor; cbn [g_sh g_user g_thr]; auto.
      + destruct (idle_thr _ _ _ _ _ TI (Nat.le_refl _)) as [_ Hn]. eapply arr_inv_ext; [| |exact AI]; [repeat split|]. intros j a.
        destruct (Nat.eq_dec j (length (g_thr g))) as [->|Hne]; [rewrite upd_same, Hn; reflexivity | rewrite upd_other by assumption; reflexivity].
      + apply thr_start; [exact TI|]. apply START; [assumption | reflexivity].
    - (* append *) exists ow, (upd Ls (length (g_thr g)) (lset lnone (s_arr s) (sh_heap (g_sh g) (s_arr s)))). constructor; cbn [g_sh g_user g_thr]; auto.
      + apply arr_lend; auto. apply (idle_thr _ _ _ _ _ TI (Nat.le_refl _)).
      + apply thr_start; [exact TI|]. apply START; [assumption|]. exists (sh_heap (g_sh g) (s_arr s)). auto.
    - (* act *) destruct (inv_act _ _ _ _ _ _ _ _ I0 H0 H1) as (own' & L' & A & _). eauto.
    - (* finish *) destruct (inv_finish _ _ _ _ _ _ I0 H0) as [A _]. eauto.
    - destruct (inv_panic _ _ _ _ _ I0 H0) as [A _]. eauto.
    - (* drop *) exists ow, Ls. constructor; cbn [g_sh g_user g_thr].
      + destruct AI as [A B C D F G]. rewrite H0 in *. constructor; cbn [with_pool sh_heap sh_next sh_pool sh_mels]; auto.
        * intros b' Hb. apply C. apply in_remove_mid. exact Hb.
        * rewrite map_app in *. eapply NoDup_remove_1. exact D.
        * intros a Ha. destruct (F a Ha) as (F1 & F2 & F3). repeat split; auto. intros X. apply F2. rewrite map_app in *. cbn [map]. apply in_remove_mid. exact X.
      + eapply cache_inv_ext; [| |exact CI]; [repeat split | reflexivity].
      + eapply thr_shared; [exact TI | reflexivity].
    - exists ow, Ls. constructor; cbn [g_sh g_user g_thr].
      + destruct AI as [A B C D F G]. rewrite H0 in *. constructor; cbn [with_mels sh_heap sh_next sh_pool sh_mels]; auto. apply Forall_app in G. destruct G as [G1 G2]. inversion G2; subst. apply Forall_app. auto.
      + eapply cache_inv_ext; [| |exact CI]; [repeat split | reflexivity].
      + eapply thr_shared; [exact TI | reflexivity].
    - exists ow, Ls. constructor; cbn [g_sh g_user g_thr].
      + eapply arr_inv_ext; [| |exact AI]; [repeat split | reflexivity].
      + eapply cache_inv_ext; [| |exact CI]; [repeat split | reflexivity].
      + eapply thr_shared; [exact TI | reflexivity].
  Qed.

  Lemma inv_steps g ls g' : gsteps H starts g ls g' -> forall ow Ls, inv g ow Ls -> exists ow' Ls', inv g' ow' Ls'.
  Proof. induction 1 as [|g l g1 ls g2 Hst Hss IH]; intros ow Ls I0; [eauto|]. destruct (inv_step _ _ _ _ _ I0 Hst) as (ow1 & Ls1 & I1). eapply IH; eauto. Qed.

  Theorem reachable_inv g : reachable H starts g -> exists ow Ls, inv g ow Ls.
  Proof. intros (ls & Hs). eapply inv_steps; [exact Hs | apply inv_init]. Qed.

  (** ** Progress *)
  Definition is_wait (o : op) : bool := match o with OWait _ _ => true | _ => false end.

  Lemma split_junk (c : bytes) n : (n <= length c)%nat -> length c = (n + length (skipn n c))%nat.
  Proof. intros Hn. rewrite skipn_length. lia. Qed.
  Lemma append_can S s b : exists S' s', append_to S s b S' s'.
  Proof.
    destruct (Nat.le_gt_cases (s_len s + length b) (length (sh_heap S (s_arr s)))) as [Hl|Hl].
    - eexists _, _. apply at_fits. exact Hl.
    - eexists _, _. apply (at_grow _ _ _ []). exact Hl.
  Qed.

  Lemma op_can S u Ls ow i o : arr_inv S u Ls -> cache_inv H S ow -> safe H (Wof S) (ow i) (Ls i) o -> is_wait o = false -> exists S' x, opstep H S o S' x.
  Proof.
    intros AI CI Hs Hw. assert (AH := ai_heap _ _ _ AI). destruct o; cbn [safe is_wait] in *; try discriminate; try (eexists _, _; constructor; fail).
    - destruct (append_can S s b) as (S' & s' & A). eexists _, _. constructor. exact A.
    - destruct (append_can S s (read_sub (sh_heap S) r)) as (S' & s' & A). eexists _, _. constructor. exact A.
    - destruct Hs as (c & Hc & Hl). eexists _, _. apply (t_spoil H S s (skipn (s_len s) c)). rewrite (proj2 (AH _ _ _ Hc)). apply split_junk. exact Hl.
    - destruct Hs as (c & Hc & Hl). eexists _, _. apply (t_user_new H S s b (skipn (s_len s) c) []). rewrite (proj2 (AH _ _ _ Hc)). apply split_junk. exact Hl.
    - eexists _, (APieces [b]). constructor. apply app_nil_r.
    - destruct (SO (map (read_kv (sh_heap S)) l)) as [P _]. apply Permutation_sym in P. destruct (Permutation_map_inv _ _ P) as (l' & E & P'). eexists _, (AMel l'). constructor; [exact P' | auto].
    - destruct (lookup_key (sh_scache S) (t, ca)) as [c|] eqn:El; eexists _, _; [eapply t_los_loaded | eapply t_los_stored]; exact El.
    - destruct Hs as [(f & own' & Ho) _]. destruct (ci_own _ _ _ CI i (t, ca) f) as (ins & X & _); [rewrite Ho; left; reflexivity|]. eexists _, _. eapply t_set_ins. exact X.
    - destruct Hs as (own' & Ho). destruct (ci_own _ _ _ CI i (t, ca) true) as (ins & X & _); [rewrite Ho; left; reflexivity|]. eexists _, _. eapply t_done. exact X.
    - destruct (lookup_typ (sh_fcache S) t) as [c|] eqn:El; eexists _, _; [eapply t_losf_loaded | eapply t_losf_stored]; exact El.
    - destruct (lookup_typ (sh_ecache S) t) as [c|] eqn:El; eexists _, _; [eapply t_lose_loaded | eapply t_lose_stored]; exact El.
    - destruct Hs as (fs & n & X). eexists _, _. econstructor. exact X.
    - destruct Hs as (n & b & X). eexists _, _. econstructor. exact X.
  Qed.

  (** A step of a goroutine, to its next action or to its end. *)
  Definition gact (g g' : gst) : Prop :=
    exists i c p, nth_error (g_thr g) i = Some (c, Running p) /\
      ((exists S' p', tstep H (g_sh g) p S' p' /\ g' = mkG S' (g_user g) (set_thr (g_thr g) i (c, Running p'))) \/
       (exists r, p = PRet r /\ g' = mkG (g_sh g) (returned r ++ lent c ++ g_user g) (set_thr (g_thr g) i (c, Finished r))) \/
       (p = PPanic /\ g' = mkG (g_sh g) (lent c ++ g_user g) (set_thr (g_thr g) i (c, Panicked)))).

  Lemma gact_step g g' : gact g g' -> exists l, gstep H starts g l g'.
  Proof.
    intros (i & c & p & Hn & [(S' & p' & A & ->)|[(r & -> & ->)|[-> ->]]]); eexists; [eapply g_act | eapply g_finish | eapply g_panic]; eauto.
  Qed.

  Lemma busy_steps g ow Ls i c p : inv g ow Ls -> nth_error (g_thr g) i = Some (c, Running p) -> ow i <> [] -> exists g', gact g g'.
  Proof.
    intros [AI CI TI] Hn Ho. assert (T := TI i). rewrite Hn in T. inversion T as [W own L x H0|W own L H0|W own L o k H0 Hk|W own L t ca q k H0|W own L o m c0 p0 s k H0]; subst.
    - destruct (QR _ _ _ _ _ H0). congruence.
    - destruct (QP _ _ _ _ H0). congruence.
    - assert (Hw : is_wait o = false). { destruct o; try reflexivity. cbn [safe] in H0. destruct H0. congruence. }
      destruct (op_can _ _ _ _ _ _ AI CI H0 Hw) as (S' & x & A). eexists _, i, c, _. split; [exact Hn|]. left. eexists _, _. split; [constructor; exact A | reflexivity].
    - eexists _, i, c, _. split; [exact Hn|]. left. eexists _, _. split; [constructor | reflexivity].
    - eexists _, i, c, _. split; [exact Hn|]. left. eexists _, _. split; [constructor | reflexivity].
  Qed.

  Theorem progress g ow Ls i c p : inv g ow Ls -> nth_error (g_thr g) i = Some (c, Running p) -> exists g', gact g g'.
  Proof.
    intros I0 Hn. assert (I1 := I0). destruct I1 as [AI CI TI]. assert (T := TI i). rewrite Hn in T. inversion T as [W own L x H0|W own L H0|W own L o k H0 Hkk|W own L t ca q k H0|W own L o m c0 p0 s k H0]; subst.
    - eexists _, i, c, _. split; [exact Hn|]. right. left. eexists. split; reflexivity.
    - eexists _, i, c, _. split; [exact Hn|]. right. right. split; reflexivity.
    - destruct (is_wait o) eqn:Hw.
      + destruct o; try discriminate. cbn [safe] in H0. destruct H0 as [Hk _]. apply (ci_hole _ _ _ CI) in Hk.
        destruct (lookup_key (sh_holes (g_sh g)) (t, ca)) as [[ins d]|] eqn:El; [|congruence]. destruct d.
        * destruct ins as [fs|]; [|exfalso; eapply (ci_done _ _ _ CI); eauto]. eexists _, i, c, _. split; [exact Hn|]. left. eexists _, _. split; [constructor; constructor; exact El | reflexivity].
        * destruct (ci_open _ _ _ CI _ _ El) as (j & f & Hj). assert (Tj := TI j). destruct (nth_error (g_thr g) j) as [[c' [p'|r|]]|] eqn:Ej; try (destruct Tj as [X _]; rewrite X in Hj; destruct Hj).
          eapply busy_steps; [exact I0 | exact Ej | intros X; rewrite X in Hj; destruct Hj].
      + destruct (op_can _ _ _ _ _ _ AI CI H0 Hw) as (S' & x & A). eexists _, i, c, _. split; [exact Hn|]. left. eexists _, _. split; [constructor; exact A | reflexivity].
    - eexists _, i, c, _. split; [exact Hn|]. left. eexists _, _. split; [constructor | reflexivity].
    - eexists _, i, c, _. split; [exact Hn|]. left. eexists _, _. split; [constructor | reflexivity].
  Qed.

  (** ** Termination *)
  Definition conf : Type := list hold * lheap * prog cres.
  Inductive cstep (W : keys) : conf -> keys -> conf -> Prop :=
  | cs_op own L o k W1 W' own' L' x : kincl W W1 -> astep H W1 own L o W' own' L' x -> cstep W (own, L, POp o k) W' (own', L', k x)
  | cs_build own L t ca q k : cstep W (own, L, PBuild t ca q k) W (own, L, pbind (build_body H t ca q) k)
  | cs_run own L o m c p s k : cstep W (own, L, PRun o m c p s k) W (own, L, pbind (run_body H o m c p s) k).
  Definition cR (x y : keys * conf) : Prop := exists W0, kincl W0 (fst x) /\ cstep (fst y) (snd y) W0 (snd x).

  Lemma cstep_mono W W' x V y : kincl W W' -> cstep W' x V y -> exists V', kincl V' V /\ cstep W x V' y.
  Proof.
    intros HW Hs. inversion Hs; subst.
    - exists V. split; [apply kincl_refl|]. econstructor; [eapply kincl_trans; eauto | eassumption].
    - exists W. split; [exact HW | constructor].
    - exists W. split; [exact HW | constructor].
  Qed.
  Lemma cR_mono W W' x y : kincl W W' -> cR y (W', x) -> cR y (W, x).
  Proof. intros HW (V & A & B). cbn [fst snd] in *. destruct (cstep_mono W W' _ _ _ HW B) as (V' & C & D). exists V'. cbn [fst snd]. split; [eapply kincl_trans; eauto | exact D]. Qed.
  Lemma good_acc Q W own L p : qmono Q -> good H Q W own L p -> Acc cR (W, (own, L, p)).
  Proof.
    intros HQ Hg. induction Hg; constructor; intros [W2 [[own2 L2] p2]] (V & A & B); cbn [fst snd] in *; inversion B; subst.
    - assert (X : Acc cR (V, (own2, L2, k x))) by eauto. constructor. intros y Hy. eapply X. eapply cR_mono; eauto.
    - constructor. intros y Hy. eapply IHHg. eapply cR_mono; eauto.
    - constructor. intros y Hy. eapply IHHg. eapply cR_mono; eauto.
  Qed.

  Definition sys : Type := keys * list (option conf).
  Definition sR (s' s : sys) : Prop :=
    kincl (fst s) (fst s') /\ exists i x, nth_error (snd s) i = Some (Some x) /\
      (snd s' = set_nth (snd s) i None \/ exists x', cR (fst s', x') (fst s, x) /\ snd s' = set_nth (snd s) i (Some x')).

  Lemma sR_mono W W' l s : kincl W W' -> sR s (W', l) -> sR s (W, l).
  Proof.
    intros HW (A & i & x & B & [C|(x' & C & D)]); cbn [fst snd] in *; (split; [eapply kincl_trans; eauto|]); exists i, x; (split; [exact B|]); [left; exact C|].
    right. exists x'. cbn [fst snd]. split; [eapply cR_mono; eauto | exact D].
  Qed.
  Lemma sAcc_mono W W' l : kincl W W' -> Acc sR (W, l) -> Acc sR (W', l).
  Proof. intros HW Ha. constructor. intros s Hs. apply Ha. eapply sR_mono; eauto. Qed.

  Lemma sys_nil W : Acc sR (W, []).
  Proof. constructor. intros s (_ & i & x & B & _). destruct i; discriminate. Qed.
  Lemma sys_none s : Acc sR s -> Acc sR (fst s, None :: snd s).
  Proof.
    induction 1 as [[W l] _ IH]. cbn [fst snd] in *. constructor. intros [W2 l2] (A & i & x & B & C). cbn [fst snd] in *. destruct i as [|i]; [discriminate|]. cbn [nth_error] in B.
    destruct C as [C|(x' & C & D)]; subst l2.
    - apply (IH (W2, set_nth l i None)). split; [exact A|]. exists i, x. split; [exact B | left; reflexivity].
    - apply (IH (W2, set_nth l i (Some x'))). split; [exact A|]. exists i, x. split; [exact B | right; exists x'; auto].
  Qed.
  Lemma sys_cons y : Acc cR y -> forall l, Acc sR (fst y, l) -> Acc sR (fst y, Some (snd y) :: l).
  Proof.
    induction 1 as [[W x] _ IHx]. cbn [fst snd] in *.
    assert (G : forall s, Acc sR s -> kincl W (fst s) -> Acc sR (fst s, Some x :: snd s)).
    { induction 1 as [[W2 l] Hl IHl]. cbn [fst snd] in *. intros HW. constructor. intros [W3 l3] (A & i & z & B & C). cbn [fst snd] in *. destruct i as [|i].
      - cbn [nth_error] in B. injection B as <-. destruct C as [->|(x' & C & ->)]; unfold set_nth; cbn [firstn skipn app].
        + apply (sys_none (W3, l)). eapply sAcc_mono; [exact A | constructor; exact Hl].
        + apply (IHx (W3, x')); [eapply cR_mono; [exact HW | exact C]|]. cbn [fst]. eapply sAcc_mono; [exact A | constructor; exact Hl].
      - cbn [nth_error] in B. destruct C as [->|(x' & C & ->)].
        + apply (IHl (W3, set_nth l i None)); [|cbn [fst]; eapply kincl_trans; eauto]. split; [exact A|]. exists i, z. split; [exact B | left; reflexivity].
        + apply (IHl (W3, set_nth l i (Some x'))); [|cbn [fst]; eapply kincl_trans; eauto]. split; [exact A|]. exists i, z. split; [exact B | right; exists x'; auto]. }
    intros l Hl. apply (G (W, l)); [exact Hl | apply kincl_refl].
  Qed.
  Lemma sys_acc W l : (forall x, In (Some x) l -> Acc cR (W, x)) -> Acc sR (W, l).
  Proof.
    induction l as [|[x|] l IH]; intros Hl; [apply sys_nil | |].
    - apply (sys_cons (W, x)); [apply Hl; left; reflexivity | apply IH; intros y Hy; apply Hl; right; exact Hy].
    - apply (sys_none (W, l)). apply IH. intros y Hy. apply Hl. right. exact Hy.
  Qed.

  (** The system seen by the invariant. *)
  Definition sees (g : gst) (ow : nat -> list hold) (Ls : nat -> lheap) (l : list (option conf)) : Prop :=
    length l = length (g_thr g) /\
    forall i, nth_error l i = match nth_error (g_thr g) i with
                              | Some (_, Running p) => Some (Some (ow i, Ls i, p))
                              | Some _ => Some None
                              | None => None
                              end.

  Lemma sees_set g ow Ls l i c st own' L' S' u' : sees g ow Ls l -> (i < length (g_thr g))%nat ->
    sees (mkG S' u' (set_thr (g_thr g) i (c, st))) (upd ow i own') (upd Ls i L')
      (set_nth l i (match st with Running p => Some (own', L', p) | _ => None end)).
  Proof.
    intros [Hl Hs] Hi. change (set_thr (g_thr g) i (c, st)) with (set_nth (g_thr g) i (c, st)). split; cbn [g_thr].
    - rewrite !set_nth_length by lia. exact Hl.
    - intros j. rewrite !nth_set by lia. destruct (Nat.eqb_spec j i) as [->|Hne].
      + rewrite !upd_same. destruct st; reflexivity.
      + rewrite !upd_other by assumption. apply Hs.
  Qed.

  Lemma acc_gact s : Acc sR s -> forall g ow Ls, inv g ow Ls -> sees g ow Ls (snd s) -> kincl (fst s) (Wof (g_sh g)) -> kincl (Wof (g_sh g)) (fst s) -> Acc (fun g' g => gact g g') g.
  Proof.
    induction 1 as [[W l] _ IH]. cbn [fst snd] in *. intros g ow Ls I0 Hse K1 K2. constructor. intros g' (i & c & p & Hn & Hc). assert (Hi := nth_some _ _ _ Hn).
    assert (Hx : nth_error l i = Some (Some (ow i, Ls i, p))). { rewrite (proj2 Hse i), Hn. reflexivity. }
    destruct Hc as [(S' & p' & A & ->)|[(r & -> & ->)|[-> ->]]].
    - destruct (inv_act _ _ _ _ _ _ _ _ I0 Hn A) as (own' & L' & I1 & HW & Hp).
      eapply (IH (Wof S', set_nth l i (Some (own', L', p')))); [|exact I1 | | apply kincl_refl | apply kincl_refl].
      + split; cbn [fst snd]; [eapply kincl_trans; eauto|]. exists i, (ow i, Ls i, p). split; [exact Hx|]. right. exists (own', L', p'). split; [|reflexivity].
        inversion A; subst.
        * destruct Hp as (W' & y & B1 & B2 & B3). exists W'. cbn [fst snd]. split; [exact B2|]. rewrite B3. econstructor; [exact K1 | exact B1].
        * destruct Hp as (-> & -> & _). exists W. cbn [fst snd]. split; [exact K1 | constructor].
        * destruct Hp as (-> & -> & _). exists W. cbn [fst snd]. split; [exact K1 | constructor].
      + cbn [snd]. apply (sees_set g ow Ls l i c (Running p')); assumption.
    - destruct (inv_finish _ _ _ _ _ _ I0 Hn) as [I1 _].
      eapply (IH (W, set_nth l i None)); [|exact I1 | | exact K1 | exact K2].
      + split; cbn [fst snd]; [apply kincl_refl|]. exists i, (ow i, Ls i, PRet r). split; [exact Hx | left; reflexivity].
      + cbn [snd]. apply (sees_set g ow Ls l i c (Finished r)); assumption.
    - destruct (inv_panic _ _ _ _ _ I0 Hn) as [I1 _].
      eapply (IH (W, set_nth l i None)); [|exact I1 | | exact K1 | exact K2].
      + split; cbn [fst snd]; [apply kincl_refl|]. exists i, (ow i, Ls i, PPanic). split; [exact Hx | left; reflexivity].
      + cbn [snd]. apply (sees_set g ow Ls l i c Panicked); assumption.
  Qed.

  Definition see (thr : list (gcall * status)) (ow : nat -> list hold) (Ls : nat -> lheap) : list (option conf) :=
    map (fun ix => match snd (snd ix) with Running p => Some (ow (fst ix), Ls (fst ix), p) | _ => None end) (combine (seq 0 (length thr)) thr).
  Lemma nth_combine_seq {X} (l : list X) : forall n i, nth_error (combine (seq n (length l)) l) i = option_map (fun x => (n + i, x)%nat) (nth_error l i).
  Proof. induction l as [|x l IH]; intros n [|i]; cbn [length seq combine nth_error option_map]; try reflexivity; [rewrite Nat.add_0_r; reflexivity|]. rewrite IH. destruct (nth_error l i); cbn [option_map]; [rewrite Nat.add_succ_r|]; reflexivity. Qed.
  Lemma see_sees g ow Ls : sees g ow Ls (see (g_thr g) ow Ls).
  Proof.
    split; [unfold see; rewrite map_length, combine_length, seq_length; lia|]. intros i. unfold see. rewrite nth_error_map, nth_combine_seq.
    destruct (nth_error (g_thr g) i) as [[c [p|r|]]|]; reflexivity.
  Qed.

  Theorem terminates g ow Ls : inv g ow Ls -> Acc (fun g' g => gact g g') g.
  Proof.
    intros I0. eapply (acc_gact (Wof (g_sh g), see (g_thr g) ow Ls)); [|exact I0 | apply see_sees | apply kincl_refl | apply kincl_refl].
    apply sys_acc. intros x Hx. apply In_nth_error in Hx. destruct Hx as [i Hi]. rewrite (proj2 (see_sees g ow Ls) i) in Hi. assert (T := in_thr _ _ _ I0 i).
    destruct (nth_error (g_thr g) i) as [[c [p|r|]]|]; try discriminate. injection Hi as <-. eapply good_acc; [apply QM | exact T].
  Qed.
End Global.
