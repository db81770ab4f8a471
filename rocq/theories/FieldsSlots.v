(** What the offset slices of structFields hold, at every depth: each slot is
    that of the last path written to it (struct.go:307 appends to slices whose
    arrays are shared). *)
From Coq Require Import Permutation Sorted Lia.
From Verif Require Import Base Utf8 OptionsModel TypesModel TypesFacts TagsModel TagsProof MemModel FieldsSpec FieldsModel FieldsSelect FieldsProof FieldsThm.
Local Open Scope nat_scope.

Definition last_roomless (k r : nat) : Prop := roomless r /\ r <= k /\ forall r', roomless r' -> r' <= k -> r' <= r.

Lemma last_roomless_det k r r' : last_roomless k r -> last_roomless k r' -> r = r'.
Proof. intros (A & B & C) (A' & B' & C'). pose proof (C r' A' B'). pose proof (C' r A B). lia. Qed.
Lemma last_roomless_here k : roomless k -> last_roomless k k.
Proof. intros A. split; [exact A|]. split; [lia | auto]. Qed.
Lemma last_roomless_skip k r : ~ roomless (S k) -> last_roomless k r -> last_roomless (S k) r.
Proof.
  intros N (A & B & C). split; [exact A|]. split; [lia|]. intros r' Hr Hl. apply C; [exact Hr|].
  destruct (Nat.eq_dec r' (S k)) as [->|]; [contradiction | lia].
Qed.
Lemma last_roomless_ex k : exists r, last_roomless k r.
Proof.
  induction k as [|k (r & Hr)]; [exists 0; apply last_roomless_here; left; reflexivity|].
  destruct (Nat.eq_dec (cap_of (S k)) (S k)) as [Q|Q]; [exists (S k); apply last_roomless_here, cap_of_roomless, Q|].
  exists r. apply last_roomless_skip; [|exact Hr]. intros C. apply Q, cap_of_roomless, C.
Qed.

Lemma FOP_In {A} (R : A -> A -> Prop) l x y : ForallOrdPairs R l -> In x l -> In y l -> x = y \/ R x y \/ R y x.
Proof.
  intros Hl. induction Hl as [|z l Hz Hl IH]; intros Hx Hy; [destruct Hx|]. rewrite Forall_forall in Hz.
  destruct Hx as [->|Hx], Hy as [->|Hy]; auto.
Qed.

Lemma firstn_snoc {A} (l : list A) x n : n <= length l -> firstn n (l ++ [x]) = firstn n l.
Proof. intros Hn. rewrite firstn_app. replace (n - length l) with 0 by lia. cbn. apply app_nil_r. Qed.

Lemma nth_error_firstn {A} n : forall k (l : list A), k < n -> nth_error (firstn n l) k = nth_error l k.
Proof. induction n as [|n IH]; intros [|k] [|y l] Hk; cbn [firstn nth_error]; auto; try lia. apply IH. lia. Qed.

Section Slots.
  Variable H : host.
  Hypothesis WF : wf_host H.
  Variable t : typ.
  Hypothesis Tok : typ_ok (h_letter H) (h_udigit H) t.
  Notation path := (epath (h_env H) (h_off H) (h_letter H) (h_udigit H) t).

  (** The paths along which struct types are scanned, and those put in the queue. *)
  Definition visited (p : list nat) (w : typ) : Prop := (exists sq, path p sq w) /\ dist H t w (length p) /\ first_path H t p w.
  Definition queued (p : list nat) (w : typ) : Prop :=
    (p = [] /\ w = t) \/
    exists q i w0 b, p = q ++ [i] /\ visited q w0 /\ edge H w0 i b w /\
      forall q' i' w1 b', visited q' w1 -> length q' = length q -> edge H w1 i' b' w -> q' ++ [i'] = p \/ index_less p (q' ++ [i']) = true.

  (** The paths of length k + 1 whose slot k is in the same array as that of p,
      and the one that is written last. *)
  Definition sharer (p : list nat) (k : nat) (q : list nat) : Prop :=
    (exists w, queued q w) /\ length q = S k /\ exists r, last_roomless k r /\ firstn (S r) q = firstn (S r) p.
  Definition writer (p : list nat) (k : nat) (q : list nat) : Prop :=
    sharer p k q /\ forall q', sharer p k q' -> q' = q \/ index_less q' q = true.
  Definition slots (p : list nat) (l : list seqelt) : Prop :=
    length l = length p /\ forall k, k < length p -> exists q sq w, writer p k q /\ path q sq w /\ nth_error l k = nth_error sq k.

  Lemma queued_path p w : queued p w -> exists sq, path p sq w.
  Proof.
    intros [(-> & ->)|(q & i & w0 & b & -> & ((sq & Hp) & _) & He & _)]; [exists []; constructor|].
    eexists. eapply path_snoc; eauto.
  Qed.

  Lemma writer_snoc p i k q : k < length p -> writer p k q -> writer (p ++ [i]) k q.
  Proof.
    intros Hk.
    assert (G : forall q', sharer (p ++ [i]) k q' <-> sharer p k q').
    { intros q'. unfold sharer. split; intros (A & B & r & C & D); (split; [exact A|]; split; [exact B|]; exists r; split; [exact C|]);
        (rewrite firstn_snoc in * by (destruct C as (_ & C & _); lia); exact D). }
    intros (A & B). split; [apply G, A|]. intros q' Hq. apply B, G, Hq.
  Qed.

  Definition elt (s : step) : seqelt := (h_off H (fields_of H (b_typ (p_f s))) (p_i s), is_ptr H (p_u s)).
  Definition arr (h : heap) (b : bfield) : list seqelt := nth (sl_arr (b_seq b)) h [].

  Record lslots (n : nat) (h0 : heap) (flds0 : list field) (done : list step) (st : sstate) : Prop := {
    m_base : linv H t n h0 flds0 done st;
    m_node : forall b, In b (s_next st) -> exists s, In s done /\ b_index b = p_path s /\ tgt H s = [b_typ b] /\
       firstn n (arr (s_heap st) b) = firstn n (arr h0 (p_f s)) /\ (cap_of n <> n -> sl_arr (b_seq b) = sl_arr (b_seq (p_f s)));
    m_new : cap_of n = n -> ForallOrdPairs (fun b b' => sl_arr (b_seq b) <> sl_arr (b_seq b')) (s_next st);
    m_slot : forall b, In b (s_next st) -> exists b' s', In b' (s_next st) /\ In s' done /\ b_index b' = p_path s' /\ tgt H s' = [b_typ b'] /\
       sl_arr (b_seq b') = sl_arr (b_seq b) /\ nth_error (arr (s_heap st) b) n = Some (elt s') /\
       forall b2, In b2 (s_next st) -> sl_arr (b_seq b2) = sl_arr (b_seq b) -> b2 = b' \/ index_less (b_index b2) (b_index b') = true;
    m_flds : forall x, In x (s_flds st) -> In x flds0 \/ exists s, In s done /\ f_index x = p_path s /\
       f_seq x = sl_read h0 (b_seq (p_f s)) ++ [(h_off H (fields_of H (b_typ (p_f s))) (p_i s), false)]
  }.

  Lemma lslots_step n h0 flds0 done st s : lslots n h0 flds0 done st -> step_good H t n h0 s -> Forall (fun s0 => step_apart H t n s0 s) done ->
    lslots n h0 flds0 (done ++ [s]) (do_step H st s).
  Proof.
    intros [Hb Hn Hw Hs Hf] Hg Hap. pose proof (linv_step H WF t Tok n h0 flds0 done st s Hb Hg Hap) as Hb'.
    destruct Hg as (Hg & Hlen & Hnth). destruct Hb as [Hh Hc Hnx _ _ _ _ _].
    assert (Hg' : bgood H t (s_heap st) (p_f s)) by (eapply bgood_stable; eauto).
    assert (In' : forall s0, In s0 done -> In s0 (done ++ [s])) by (intros; apply in_or_app; auto).
    assert (Hn2 : forall b, In b (s_next st) -> exists s0, In s0 (done ++ [s]) /\ b_index b = p_path s0 /\ tgt H s0 = [b_typ b] /\
       firstn n (arr (s_heap st) b) = firstn n (arr h0 (p_f s0)) /\ (cap_of n <> n -> sl_arr (b_seq b) = sl_arr (b_seq (p_f s0)))).
    { intros b Hb. destruct (Hn b Hb) as (s0 & A & B). exists s0. auto. }
    assert (Hs2 : forall b, In b (s_next st) -> exists b' s', In b' (s_next st) /\ In s' (done ++ [s]) /\ b_index b' = p_path s' /\ tgt H s' = [b_typ b'] /\
       sl_arr (b_seq b') = sl_arr (b_seq b) /\ nth_error (arr (s_heap st) b) n = Some (elt s') /\
       forall b2, In b2 (s_next st) -> sl_arr (b_seq b2) = sl_arr (b_seq b) -> b2 = b' \/ index_less (b_index b2) (b_index b') = true).
    { intros b Hb. destruct (Hs b Hb) as (b' & s' & A & B & C). exists b', s'. auto. }
    assert (Hf2 : forall x, In x (s_flds st) -> In x flds0 \/ exists s0, In s0 (done ++ [s]) /\ f_index x = p_path s0 /\
       f_seq x = sl_read h0 (b_seq (p_f s0)) ++ [(h_off H (fields_of H (b_typ (p_f s0))) (p_i s0), false)]).
    { intros x Hx. destruct (Hf x Hx) as [|(s0 & A & B)]; [auto|]. right. exists s0. auto. }
    assert (Ts : tgt H s = match classify H (p_d s) (p_u s) with FEmbed => [strip_ptr (p_u s)] | _ => [] end) by reflexivity.
    revert Hb'. unfold do_step, scan1. destruct (classify H (p_d s) (p_u s)) as [|name tagged opts|] eqn:Ec.
    - intros Hb'. split; auto.
    - intros Hb'. split; cbn [s_heap s_next s_flds]; auto. intros x Hx. apply in_app_or in Hx. destruct Hx as [Hx|Hx]; [apply Hf2, Hx|]. right.
      assert (Ex : x = mkField name tagged (tag_contains opts (lit "string") && isBasicType (h_env H) (strip_ptr (p_u s))) (tag_contains opts (lit "omitempty")) (tag_contains opts (lit "omitnil"))
                  (b_index (p_f s) ++ [p_i s]) (sl_read (s_heap st) (b_seq (p_f s)) ++ [(h_off H (fields_of H (b_typ (p_f s))) (p_i s), false)])).
      { destruct (p_dup s); cbn [In] in Hx; intuition. }
      exists s. split; [apply in_or_app; right; left; reflexivity|]. rewrite Ex. cbn [f_index f_seq]. split; [reflexivity|]. f_equal.
      destruct Hg as (sq & _ & _ & P3 & P4 & _). unfold sl_read. rewrite P3, Hlen. apply Hh, P4.
    - set (u := strip_ptr (p_u s)) in *. cbn zeta. rewrite count_app, count_one.
      destruct (Nat.eqb_spec (count u (s_ncnt st) + 1) 1) as [Z|Z]; [|intros Hb'; split; cbn [s_heap s_next s_flds]; auto].
      destruct (sl_append (s_heap st) (b_seq (p_f s)) _) as [h' s'] eqn:Ea. intros Hb'.
      destruct Hg as (sq0 & _ & _ & Q3 & Q4 & _).
      destruct Hg' as (sq & P1 & P2 & P3 & P4 & P5). rewrite P3, Hlen in P5.
      destruct (append_good n _ _ _ _ _ Ea ltac:(lia) P4 P5) as (A1 & A2 & A3 & A4 & A6 & A7 & A8 & A9).
      fold (elt s) in *.
      set (nb := mkB u (b_index (p_f s) ++ [p_i s]) s') in *.
      assert (Ln : length (sl_read (s_heap st) (b_seq (p_f s))) = n) by (unfold sl_read; rewrite firstn_length, P5, P3, Hlen; pose proof (proj1 (cap_of_bounds n)); lia).
      assert (Rn : firstn (S n) (arr h' nb) = firstn n (arr (s_heap st) (p_f s)) ++ [elt s]).
      { unfold sl_read in A6. rewrite A2, P3, Hlen in A6. exact A6. }
      assert (Lf : length (firstn n (arr (s_heap st) (p_f s))) = n) by (unfold sl_read in Ln; rewrite P3, Hlen in Ln; exact Ln).
      assert (F1 : firstn n (arr h' nb) = firstn n (arr h0 (p_f s))).
      { replace (firstn n (arr h' nb)) with (firstn n (firstn (S n) (arr h' nb))) by (rewrite firstn_firstn; f_equal; lia).
        rewrite Rn. rewrite firstn_app, Lf, Nat.sub_diag, firstn_O, app_nil_r, firstn_firstn, Nat.min_id. unfold arr. apply Hh, Q4. }
      assert (F2 : nth_error (arr h' nb) n = Some (elt s)).
      { assert (X : nth_error (firstn (S n) (arr h' nb)) n = Some (elt s)) by (rewrite Rn, nth_error_app2, Lf, Nat.sub_diag by lia; reflexivity).
        rewrite <- X. symmetry. apply nth_error_firstn. lia. }
      assert (Bt : forall b, In b (s_next st) -> sl_arr (b_seq b) < length (s_heap st) /\ arr h' b = (if (cap_of n =? n) || negb (sl_arr (b_seq b) =? sl_arr s') then arr (s_heap st) b else arr h' nb)).
      { intros b Hb. destruct (Hnx b Hb) as ((sq1 & _ & _ & _ & B4 & _) & _). split; [exact B4|]. unfold arr. cbn [nb b_seq].
        destruct (Nat.eqb_spec (cap_of n) n) as [Q|Q]; cbn [orb]; [apply A9; [exact B4 | congruence]|].
        rewrite (A8 Q). destruct (Nat.eqb_spec (sl_arr (b_seq b)) (sl_arr (b_seq (p_f s)))) as [->|Ne]; cbn [negb]; [reflexivity|]. apply A9; [exact B4 | intros _; exact Ne]. }
      assert (Less : forall b, In b (s_next st) -> index_less (b_index b) (b_index nb) = true).
      { intros b Hb. destruct (Hn b Hb) as (s0 & B1 & B2 & _). rewrite B2. rewrite Forall_forall in Hap. apply (proj1 (Hap s0 B1)). }
      assert (Keep : forall b, In b (s_next st) -> firstn n (arr h' b) = firstn n (arr (s_heap st) b)) by (intros b Hb; apply A1, (proj1 (Bt b Hb))).
      split; cbn [s_heap s_next s_flds].
      + exact Hb'.
      + intros b Hb. apply in_app_or in Hb. destruct Hb as [Hb|[<-|[]]].
        * destruct (Hn2 b Hb) as (s0 & B1 & B2 & B3 & B4 & B5). exists s0. rewrite (Keep b Hb). auto.
        * exists s. split; [apply in_or_app; right; left; reflexivity|]. split; [reflexivity|]. split; [rewrite Ts; reflexivity|]. split; [exact F1 | exact A8].
      + intros Q. apply FOP_snoc; [apply Hw, Q|]. apply Forall_forall. intros b Hb. cbn [nb b_seq]. rewrite (A7 Q). pose proof (proj1 (Bt b Hb)). lia.
      + intros b Hb. destruct (Nat.eq_dec (sl_arr (b_seq b)) (sl_arr s')) as [Es|Es].
        * exists nb, s. split; [apply in_or_app; right; left; reflexivity|]. split; [apply in_or_app; right; left; reflexivity|]. split; [reflexivity|]. split; [rewrite Ts; reflexivity|].
          split; [symmetry; exact Es|]. split; [unfold arr in *; rewrite Es; exact F2|].
          intros b2 Hb2 _. apply in_app_or in Hb2. destruct Hb2 as [Hb2|[<-|[]]]; [right; apply Less, Hb2 | left; reflexivity].
        * apply in_app_or in Hb. destruct Hb as [Hb|[<-|[]]]; [|destruct (Es eq_refl)].
          destruct (Hs2 b Hb) as (b' & s0 & C1 & C2 & C3 & C4 & C5 & C6 & C7). exists b', s0. split; [apply in_or_app; auto|]. do 4 (split; [assumption|]).
          split.
          { rewrite (proj2 (Bt b Hb)). apply Nat.eqb_neq in Es. rewrite Es. cbn [negb]. rewrite orb_true_r. exact C6. }
          intros b2 Hb2 E2. apply in_app_or in Hb2. destruct Hb2 as [Hb2|[<-|[]]]; [apply C7; assumption|]. cbn [nb b_seq] in E2. congruence.
      + exact Hf2.
  Qed.

  Lemma lslots_steps n h0 flds0 steps : Forall (step_good H t n h0) steps -> ForallOrdPairs (step_apart H t n) steps ->
    lslots n h0 flds0 steps (fold_left (do_step H) steps (mkS flds0 [] [] h0)).
  Proof.
    intros Hf Ho. assert (G : forall l2 l1 st, Forall (step_good H t n h0) l2 -> ForallOrdPairs (step_apart H t n) l2 ->
      (forall s0 s, In s0 l1 -> In s l2 -> step_apart H t n s0 s) -> lslots n h0 flds0 l1 st -> lslots n h0 flds0 (l1 ++ l2) (fold_left (do_step H) l2 st)).
    { induction l2 as [|s l2 IH]; intros l1 st Hl Hq Hx Hi; cbn [fold_left]; [rewrite app_nil_r; exact Hi|].
      inversion Hl; subst. inversion Hq as [|? ? Hs Hq']; subst. replace (l1 ++ s :: l2) with ((l1 ++ [s]) ++ l2) by (rewrite <- app_assoc; reflexivity).
      apply IH; auto.
      - intros s0 s1 H0 H1. apply in_app_or in H0. destruct H0 as [H0|[<-|[]]]; [apply Hx; [exact H0 | right; exact H1]|]. rewrite Forall_forall in Hs. apply Hs, H1.
      - apply lslots_step; auto. apply Forall_forall. intros s0 H0. apply Hx; [exact H0 | left; reflexivity]. }
    apply (G steps [] _ Hf Ho); [intros s0 s []|]. split; cbn; try (intros ? []); auto.
    - apply (linv_steps H WF t Tok n h0 flds0 []); constructor.
    - constructor.
  Qed.

  Record islots (n : nat) (seen : list typ) (st : sstate) : Prop := {
    j_inv : inv H t n seen st;
    j_in : forall b, In b (s_next st) -> queued (b_index b) (b_typ b);
    j_all : forall p w, queued p w -> length p = n -> exists b, In b (s_next st) /\ b_index b = p;
    j_slots : forall b, In b (s_next st) -> slots (b_index b) (sl_read (s_heap st) (b_seq b));
    j_share : forall m b b' r, n = S m -> In b (s_next st) -> In b' (s_next st) -> last_roomless m r ->
      (sl_arr (b_seq b) = sl_arr (b_seq b') <-> firstn (S r) (b_index b) = firstn (S r) (b_index b'));
    j_flds : forall x, In x (s_flds st) -> exists p w i l, visited p w /\ f_index x = p ++ [i] /\ slots p l /\ f_seq x = l ++ [(h_off H (fields_of H w) i, false)]
  }.

  Lemma islots_level n seen st : islots n seen st ->
    let '(seen', st') := level H (s_ncnt st) (s_next st) seen (mkS (s_flds st) [] [] (s_heap st)) in islots (S n) seen' st'.
  Proof.
    intros [Ji Jn Ja Js Jsh Jf]. pose proof (inv_level H WF t Tok n seen st Ji) as Ji'. destruct Ji as [Is Inx Ind Iod Ifp Icov _ _ _].
    rewrite (level_eq _ _ _ Ind) in *. set (steps := level_steps H (s_ncnt st) seen (s_next st)) in *.
    assert (Hsteps : Forall (step_good H t n (s_heap st)) steps).
    { apply Forall_forall. intros s Hs. apply level_steps_In in Hs. destruct Hs as (f & i & d & u & Hf & _ & Hk & ->).
      split; cbn [p_f p_i p_d p_u]; [apply Inx, Hf |]. split; [apply Inx, Hf | exact Hk]. }
    assert (Hpairs : ForallOrdPairs (step_apart H t n) steps) by (eapply level_apart; eauto).
    pose proof (lslots_steps n (s_heap st) (s_flds st) steps Hsteps Hpairs) as Hl.
    set (st' := fold_left (do_step H) steps _) in *. destruct Hl as [[Lh Lc Ln Ld Lod Lfp Lt _] Mn Mw Ms Mf].
    assert (Hvis : forall f, In f (s_next st) -> ~ In (b_typ f) seen -> visited (b_index f) (b_typ f)).
    { intros f Hf Hns. destruct (Inx f Hf) as ((sq & Hp & _) & Hlen). split; [eauto|]. split; [|apply Ifp; assumption]. rewrite Hlen.
      split; [exists (b_index f), sq; auto|]. intros n' Hn' C. apply Hns. apply Is. eauto. }
    assert (Hvis' : forall q w, visited q w -> length q = n -> exists f, In f (s_next st) /\ b_typ f = w /\ b_index f = q /\ ~ In (b_typ f) seen).
    { intros q w ((sq & Hq) & Hd & Hfp) Lq. rewrite Lq in Hd. pose proof (Icov w Hd) as Hin. apply in_map_iff in Hin. destruct Hin as (f & Ef & Hf). exists f. split; [exact Hf|]. split; [exact Ef|].
      assert (Ns : ~ In (b_typ f) seen).
      { intros C. apply Is in C. destruct C as (n' & Hn' & Hr). rewrite Ef in Hr. destruct Hd as (_ & Hm). eapply Hm; eauto. }
      split; [|exact Ns]. destruct (Inx f Hf) as ((sq' & Hp & _) & Hlen). rewrite Ef in Hp.
      destruct (Hfp _ _ Hp ltac:(lia)) as [|C1]; [assumption|]. pose proof (Ifp f Hf Ns) as Hfp'. rewrite Ef in Hfp'.
      destruct (Hfp' _ _ Hq ltac:(lia)) as [|C2]; [congruence|]. pose proof (index_less_trans _ _ _ C1 C2) as C. rewrite index_less_irrefl in C. discriminate. }
    assert (Hstep : forall s u, In s steps -> tgt H s = [u] -> exists b, visited (b_index (p_f s)) (b_typ (p_f s)) /\ In (p_f s) (s_next st) /\ length (b_index (p_f s)) = n /\ edge H (b_typ (p_f s)) (p_i s) b u /\ b = is_ptr H (p_u s)).
    { intros s u Hs Ht. apply level_steps_In in Hs. destruct Hs as (f & i & d & v & Hf & Hns & Hk & ->). cbn [p_f p_i p_u].
      unfold tgt in Ht. cbn [p_d p_u] in Ht. destruct (classify H d v) eqn:Ec; try discriminate. injection Ht as <-.
      exists (is_ptr H v). split; [apply Hvis; assumption|]. split; [exact Hf|]. split; [apply Inx, Hf|]. split; [exists d, v; auto | reflexivity]. }
    assert (Hedge : forall q w i b u, visited q w -> length q = n -> edge H w i b u -> exists s, In s steps /\ p_path s = q ++ [i] /\ tgt H s = [u]).
    { intros q w i b u Hq Lq (d & v & Hk & Hc & -> & ->). destruct (Hvis' q w Hq Lq) as (f & Hf & <- & <- & Hns).
      exists (mkStep f (1 <? count (b_typ f) (s_ncnt st)) i d v). split; [apply level_steps_In; exists f, i, d, v; auto|].
      split; [reflexivity|]. unfold tgt. cbn. rewrite Hc. reflexivity. }
    assert (Hin : forall b, In b (s_next st') -> queued (b_index b) (b_typ b) /\ length (b_index b) = S n).
    { intros b Hb. destruct (Mn b Hb) as (s & Hs & Hi & Ht & _). destruct (Hstep s _ Hs Ht) as (b0 & V & Hf & Ls & He & _). split.
      - right. exists (b_index (p_f s)), (p_i s), (b_typ (p_f s)), b0. split; [exact Hi|]. split; [exact V|]. split; [exact He|].
        intros q' i' w1 b' Hq Lq He'. destruct (Hedge q' w1 i' b' _ Hq ltac:(lia) He') as (s' & Hs' & <- & Ht'). apply Lfp; assumption.
      - rewrite Hi. unfold p_path. rewrite app_length, Ls. cbn. lia. }
    assert (Hall : forall p w, queued p w -> length p = S n -> exists b, In b (s_next st') /\ b_index b = p).
    { intros p w [(-> & _)|(q & i & w0 & b & -> & V & He & Hfst)] Lp; [discriminate|]. rewrite app_length in Lp. cbn [length] in Lp.
      destruct (Hedge q w0 i b w V ltac:(lia) He) as (s & Hs & Hp & Ht).
      assert (Hw : In w (map b_typ (s_next st'))) by (apply Lt; rewrite Lc; apply in_flat_map; exists s; split; [exact Hs | rewrite Ht; left; reflexivity]).
      apply in_map_iff in Hw. destruct Hw as (c & Ew & Hcn). exists c. split; [exact Hcn|].
      destruct (Mn c Hcn) as (s' & Hs' & Hi' & Ht' & _). rewrite Ew in Ht'. destruct (Hstep s' w Hs' Ht') as (b0 & V' & _ & L' & He' & _).
      rewrite Hi'. destruct (Hfst _ _ _ _ V' ltac:(lia) He') as [|C1]; [assumption|].
      destruct (Lfp c s Hcn Hs ltac:(congruence)) as [C2|C2]; [rewrite <- Hi', <- C2; exact Hp|].
      rewrite Hp, Hi' in C2. pose proof (index_less_trans _ _ _ C1 C2) as C. rewrite index_less_irrefl in C. discriminate. }
    assert (Hshare : forall b b' r, In b (s_next st') -> In b' (s_next st') -> last_roomless n r ->
      (sl_arr (b_seq b) = sl_arr (b_seq b') <-> firstn (S r) (b_index b) = firstn (S r) (b_index b'))).
    { intros b b' r Hb Hb' Hr. destruct (Hin b Hb) as (Qb & Lb), (Hin b' Hb') as (Qb' & Lb').
      destruct (Nat.eq_dec (cap_of n) n) as [Q|Q].
      - assert (r = n) by (eapply last_roomless_det; [exact Hr | apply last_roomless_here, cap_of_roomless, Q]). subst r.
        rewrite !firstn_all2 by lia. split; intros E.
        + destruct (FOP_In _ _ b b' (Mw Q) Hb Hb') as [->|[C|C]]; [reflexivity | congruence | congruence].
        + destruct (FOP_In _ _ b b' Lod Hb Hb') as [->|[(C & _)|(C & _)]]; [reflexivity | |]; rewrite E, index_less_irrefl in C; discriminate.
      - destruct (Mn b Hb) as (s & Hs & Hi & Ht & _ & Ha). destruct (Mn b' Hb') as (s' & Hs' & Hi' & Ht' & _ & Ha').
        destruct (Hstep s _ Hs Ht) as (_ & _ & Hf & Ls & _). destruct (Hstep s' _ Hs' Ht') as (_ & _ & Hf' & Ls' & _).
        rewrite (Ha Q), (Ha' Q), Hi, Hi'. unfold p_path.
        assert (Nr : ~ roomless n) by (intros C; apply Q, cap_of_roomless, C).
        destruct n as [|m]; [destruct Nr; left; reflexivity|]. destruct (last_roomless_ex m) as (r' & Hr').
        assert (r = r') by (eapply last_roomless_det; [exact Hr | apply last_roomless_skip; assumption]). subst r'.
        assert (r <= m) by apply Hr'. rewrite !firstn_snoc by lia. apply (Jsh m _ _ r); auto. }
    split.
    - exact Ji'.
    - intros b Hb. apply Hin, Hb.
    - exact Hall.
    - intros b Hb. destruct (Mn b Hb) as (s & Hs & Hi & Ht & Hfn & _). destruct (Hstep s _ Hs Ht) as (b0 & V & Hf & Ls & He & _).
      destruct (Ln b Hb) as ((sq & _ & _ & G3 & G4 & G5) & _). destruct (Hin b Hb) as (Qb & Lb).
      assert (Lr : length (sl_read (s_heap st') (b_seq b)) = S n).
      { unfold sl_read. rewrite firstn_length, G5, G3, Lb. pose proof (proj1 (cap_of_bounds (S n))). lia. }
      split; [lia|]. intros k Hk. unfold sl_read. rewrite G3, Lb. fold (arr (s_heap st') b).
      rewrite nth_error_firstn by lia. destruct (Nat.eq_dec k n) as [->|Nk].
      + destruct (Ms b Hb) as (b' & s' & B1 & B2 & B3 & B4 & B5 & B6 & B7). destruct (Hstep s' _ B2 B4) as (b1 & V' & Hf' & Ls' & He' & ->).
        destruct V' as ((sq' & Hq') & V2). exists (b_index b'). eexists _, (b_typ b'). split; [|split; [rewrite B3; unfold p_path; eapply (path_snoc H WF t Tok); eauto|]].
        * destruct (last_roomless_ex n) as (r & Hr). split.
          -- split; [exists (b_typ b'); apply Hin, B1|]. split; [apply Hin, B1|]. exists r. split; [exact Hr|]. apply (Hshare b' b r B1 Hb Hr), B5.
          -- intros q' ((w' & Hq1) & Hq2 & r' & Hr' & Hq3). destruct (Hall q' w' Hq1 Hq2) as (b2 & C1 & <-).
             destruct (B7 b2 C1) as [->|C]; [|left; reflexivity | right; exact C]. apply (Hshare b2 b r' C1 Hb Hr'), Hq3.
        * rewrite B6. assert (Lq : length sq' = n).
          { rewrite <- Ls'. clear - Hq'. induction Hq'; [reflexivity|]. rewrite !app_length. cbn. lia. }
          rewrite nth_error_app2, Lq, Nat.sub_diag by lia. reflexivity.
      + rewrite Lb in Hk. assert (Hk' : k < n) by lia. destruct (Js _ Hf) as (J1 & J2). destruct (J2 k ltac:(lia)) as (q & sq' & w & W1 & W2 & W3).
        exists q, sq', w. rewrite Hi. split; [unfold p_path; apply writer_snoc; [lia | exact W1]|]. split; [exact W2|]. rewrite <- W3.
        rewrite <- (nth_error_firstn n), Hfn by exact Hk'. unfold sl_read, arr. destruct (Inx _ Hf) as ((_ & _ & _ & P3 & _) & _). rewrite P3, Ls. reflexivity.
    - intros m b b' r Em Hb Hb' Hr. injection Em as <-. apply Hshare; assumption.
    - intros x Hx. destruct (Mf x Hx) as [Hx0|(s & Hs & E1 & E2)]; [apply Jf, Hx0|].
      apply level_steps_In in Hs. destruct Hs as (f & i & d & u & Hf & Hns & Hk & ->). cbn [p_f p_i p_path] in *.
      exists (b_index f), (b_typ f), i, (sl_read (s_heap st) (b_seq f)). split; [apply Hvis; assumption|]. split; [exact E1|]. split; [apply Js, Hf | exact E2].
  Qed.

  Lemma islots_init : islots 0 [] (mkS [] [mkB t [] nil_slice] [] [[]]).
  Proof.
    split; cbn [s_next s_heap s_flds].
    - apply inv_init, Tok.
    - intros b [<-|[]]. left. auto.
    - intros p w _ Lp. exists (mkB t [] nil_slice). split; [left; reflexivity|]. destruct p; [reflexivity | discriminate].
    - intros b [<-|[]]. split; [reflexivity|]. intros k Hk. cbn in Hk. lia.
    - intros m b b' r C. discriminate.
    - intros x [].
  Qed.

  Lemma bfs_slots : forall fuel n seen st flds, islots n seen st -> bfs H fuel seen st = Some flds ->
    forall x, In x flds -> exists p w i l, visited p w /\ f_index x = p ++ [i] /\ slots p l /\ f_seq x = l ++ [(h_off H (fields_of H w) i, false)].
  Proof.
    induction fuel as [|fuel IH]; intros n seen st flds Hi Hb; cbn [bfs] in Hb.
    - destruct (s_next st); [|discriminate]. injection Hb as <-. apply Hi.
    - destruct (s_next st) as [|b l] eqn:En.
      + injection Hb as <-. apply Hi.
      + pose proof (islots_level n seen st Hi) as Hl. rewrite En in Hl. destruct (level H (s_ncnt st) (b :: l) seen _) as [seen' st']. eapply IH; eauto.
  Qed.

  Theorem structFields_slots fuel fs x : structFields H fuel t = Some fs -> In x fs ->
    exists p w i l, visited p w /\ f_index x = p ++ [i] /\ slots p l /\ f_seq x = l ++ [(h_off H (fields_of H w) i, false)].
  Proof.
    unfold structFields. destruct (bfs H fuel [] _) as [flds|] eqn:Eb; [|discriminate]. intros Hf. injection Hf as <-. intros Hx.
    apply (bfs_slots fuel 0 [] _ flds islots_init Eb). apply (proj1 (select_fields_spec flds) x), Hx.
  Qed.

  (** The writer of a slot is unique, so the slots of a path are determined. *)
  Lemma writer_det p k q q' : writer p k q -> writer p k q' -> q = q'.
  Proof.
    intros (A & B) (A' & B'). destruct (B q' A') as [|C]; [congruence|]. destruct (B' q A) as [|C']; [assumption|].
    pose proof (index_less_trans _ _ _ C C') as D. rewrite index_less_irrefl in D. discriminate.
  Qed.
End Slots.
