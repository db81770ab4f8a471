(** Whole calls among goroutines: what they return, and which memory they
    touch. *)
From Coq Require Import Permutation.
From Verif Require Import Base IntModel JsonSpec OptionsModel EscapeModel TypesModel TypesFacts TagsModel TimeModel FloatModel LeafModel Base64Model Base64Proof MemModel FieldsModel FieldsProof FieldsThm InstrModel ExecModel ValueModel ExecMono ExecLeaf ExecProof HostFacts MarshalThm AppendThm EntriesFacts ConcModel ConcLogic ConcSound ConcGlobal ConcHeap ConcBuild ConcRun.

Section Calls.
  Variable H : host.
  Hypothesis OK : host_builds H.
  Hypothesis FR : finite_refs (h_env H).
  Notation tok := (typ_ok (h_letter H) (h_udigit H)).

  Definition mem_fine (m : mem) (v : eface) : Prop :=
    mem_bytes_ok m /\ methods_append H m /\ mem_types_ok H m /\ forall t w, v = Some (t, w) -> tok t.
  (** The calls considered: the value is made of types of the program, and the
      call would return if it were alone (it does unless the data is cyclic). *)
  Definition fine (c : gcall) : Prop :=
    match c with
    | GMarshal m v opts => mem_fine m v /\ exists r, marshal_returns H m v opts r
    | GAppend m s d v opts => mem_fine m v /\ exists r, append_returns H m d v opts r
    end.

  (** The outcome [x] of call [c], [h] being the memory: [Some] result or a panic. *)
  Definition gives (c : gcall) (x : option cres) (h : nat -> option bytes) : Prop :=
    match c with
    | GMarshal m v opts => exists r, marshal_returns H m v opts r /\
      match r with
      | MOk b => exists s, x = Some (Some s, None) /\ h (s_arr s) = Some b /\ s_len s = length b
      | MErr e => x = Some (None, Some e)
      | MCrash => x = None
      | MFuel => False
      end
    | GAppend m s d v opts =>
      (exists rest, h (s_arr s) = Some (d ++ rest)) /\
      exists r, append_returns H m d v opts r /\
      match r with
      | Ret b err =>
        (v <> None /\ call_opts opts = None /\ x = Some (None, err)) \/
        ((v = None \/ call_opts opts <> None) /\ exists s' rest, x = Some (Some s', err) /\ s_len s' = length b /\ h (s_arr s') = Some (b ++ rest))
      | Crash => x = None
      | OutOfFuel => False
      end
    end.
  Definition cpost (c : gcall) : post cres := fun x W own L => own = [] /\ gives c x L.

  Lemma cpost_mono c : qmono (cpost c).
  Proof. intros x W W' own L HW [A B]. split; assumption. Qed.
  Lemma cpost_ret c r W own L : cpost c (Some r) W own L -> own = [] /\ forall a, In a (returned r ++ lent c) -> L a <> None.
  Proof.
    intros [A B]. split; [exact A|]. intros a Ha. apply in_app_or in Ha. destruct c as [m v opts|m s d v opts]; cbn [gives lent] in *.
    - destruct B as (q & _ & B). destruct Ha as [Ha|Ha]; [|destruct Ha]. destruct q as [b|e| |]; try discriminate; try contradiction.
      + destruct B as (s & [= ->] & B & _). cbn [returned fst] in Ha. destruct Ha as [<-|[]]. congruence.
      + injection B as ->. destruct Ha.
    - destruct B as ((rest & B0) & q & _ & B). destruct Ha as [Ha|[<-|[]]]; [|congruence]. destruct q as [b err| |]; try discriminate; try contradiction.
      destruct B as [(_ & _ & [= ->])|(_ & s' & rest' & [= ->] & _ & B)]; cbn [returned fst] in Ha; [destruct Ha | destruct Ha as [<-|[]]; congruence].
  Qed.
  Lemma cpost_panic c W own L : cpost c None W own L -> own = [] /\ forall a, In a (lent c) -> L a <> None.
  Proof.
    intros [A B]. split; [exact A|]. intros a Ha. destruct c as [m v opts|m s d v opts]; cbn [gives lent] in *; [destruct Ha|].
    destruct B as ((rest & B0) & _). destruct Ha as [<-|[]]. congruence.
  Qed.

  (** json.go:162-183 *)
  Lemma marshal_good m v opts W : mem_fine m v -> (exists r, marshal_returns H m v opts r) -> good H (cpost (GMarshal m v opts)) W [] lnone (call_of H (GMarshal m v opts)).
  Proof.
    intros (MB & MA & MT & MV) (r & N & Hr & Hf). cbn [call_of]. unfold MarshalOpts in Hr. destruct v as [[t w]|].
    2: { apply good_make. intros W1 a HW1 Ha. eapply (good_write H _ W1 [] _ (mkSl a 4) 0 l_null [0; 0; 0; 0]).
         - split; [reflexivity|]. exists []. cbn [s_arr]. rewrite lset_same. reflexivity.
         - cbn. lia.
         - intros W2 HW2 rr Hrr. cbn [s_arr] in *. rewrite lset_same in Hrr. injection Hrr as Hrr. destruct rr; [|discriminate].
           apply good_ret. split; [reflexivity|]. exists (MOk l_null). split; [exists N; split; [reflexivity | discriminate]|]. exists (mkSl a 4). split; [reflexivity|]. cbn [s_arr s_len]. rewrite lset_same. split; reflexivity. }
    destruct (check_opts opts) as [o|oe] eqn:Eo.
    2: { apply good_ret. split; [reflexivity|]. exists (MErr (EInvalidOption oe)). split; [|reflexivity]. exists N. cbn [MarshalOpts]. rewrite Eo. split; [reflexivity | discriminate]. }
    assert (Ret_ : forall q, marshal_json H N m (t, w) o = q -> marshal_returns H m (Some (t, w)) opts q).
    { intros q Hq. exists N. unfold MarshalOpts. rewrite Eo. split; [exact Hq|]. congruence. }
    specialize (Ret_ _ eq_refl). rewrite <- Hr in Hf. clear Hr r. unfold marshal_json, append_json in *. unfold marshal_prog. cbn [fst snd] in *.
    destruct (cached_instr H N t) as [i|] eqn:Ei; [|cbn in Hf; congruence].
    eapply good_bind; [apply (cached_ok H OK FR t W [] lnone (MV t w eq_refl))| |].
    2: { intros W1 own1 L1 (_ & _ & _ & c' & X & _). discriminate. }
    intros c W1 own1 L1 (-> & -> & HW1 & c' & [= <-] & n & i' & Hi' & Hd).
    assert (i' = i). { assert (X := cached_mono H _ (Nat.max n N) _ _ Hi'). assert (Y := cached_mono H _ (Nat.max n N) _ _ Ei). rewrite X in Y by lia. specialize (Y ltac:(lia)). congruence. } subst i'.
    apply good_get_buf. intros W2 L2 buf HW2 Hn Hsm Hh.
    assert (Hf2 : exec H o m N i (LMem w) [] <> OutOfFuel) by (intros X; rewrite X in Hf; apply Hf; reflexivity).
    apply good_run. 
    eapply (run_then H (cpost (GMarshal m (Some (t, w)) opts)) W2 W2 L2 buf L2 buf _ (exec H o m N i (LMem w) [])); [apply kincl_refl | apply ext_refl | apply (run_ok H OK FR o m MB MA MT N c i (LMem w) buf [] W2 L2 (den_mono H _ _ HW2 _ _ Hd) Hh Hf2)| |].
    - intros b err W3 L3 s3 Er HW3 Hh3 He3. rewrite Er in *. destruct err as [e|].
      + eapply good_put; [exact Hh3|]. intros W4 HW4. apply good_ret. split; [reflexivity|]. eexists. split; [exact Ret_ | reflexivity].
      + apply good_make. intros W4 a HW4 Ha. assert (Hne : a <> s_arr s3) by (intros ->; destruct Hh3 as (_ & rr & X); congruence).
        assert (Hh4 : holds (lset L3 a (repeat 0 (s_len s3))) s3 b). { destruct Hh3 as (A & rr & B). split; [exact A|]. exists rr. rewrite lset_other by congruence. exact B. }
        eapply good_copy; [cbn [s_arr]; apply lset_same | exact Hh4 | cbn [s_len]; lia | cbn [s_len]; rewrite repeat_length; lia | exact Hne|].
        intros W5 HW5. eapply good_put.
        * destruct Hh4 as (A & rr & B). split; [exact A|]. exists rr. cbn [s_arr]. rewrite lset_other by congruence. exact B.
        * intros W6 HW6. apply good_ret. split; [reflexivity|]. eexists. split; [exact Ret_|]. exists (mkSl a (s_len s3)). split; [reflexivity|]. cbn [s_arr s_len]. rewrite ldel_other, lset_same by congruence.
          destruct Hh3 as (A & _). rewrite skipn_all2, app_nil_r by (rewrite repeat_length; lia). split; [reflexivity | exact A].
    - intros Er W3 L3 HW3 Hp3. rewrite Er in *. split; [reflexivity|]. eexists. split; [exact Ret_ | reflexivity].
  Qed.

  Lemma append_good m s d v opts W L : call_heap (GAppend m s d v opts) L -> mem_fine m v -> (exists r, append_returns H m d v opts r) ->
    good H (cpost (GAppend m s d v opts)) W [] L (call_of H (GAppend m s d v opts)).
  Proof.
    intros (a & -> & Hl & Hd) (MB & MA & MT & MV) (r & N & Hr & Hf). cbn [call_of]. unfold AppendOpts in Hr.
    assert (Hh : holds (lset lnone (s_arr s) a) s d). { split; [subst d; rewrite firstn_length; lia|]. exists (skipn (s_len s) a). rewrite lset_same, Hd, firstn_skipn. reflexivity. }
    assert (Keep : forall L', pres (lset lnone (s_arr s) a) L' s -> exists rest, L' (s_arr s) = Some (d ++ rest)).
    { intros L' P. destruct (P (s_arr s) a (lset_same _ _ _)) as [_ P2]. destruct (P2 eq_refl) as (a' & A1 & A2 & A3). exists (skipn (s_len s) a'). rewrite A1, Hd, <- A3, firstn_skipn. reflexivity. }
    destruct v as [[t w]|].
    2: { eapply good_append; [exact Hh|]. intros W1 L1 s1 HW1 Hh1 He1. apply good_ret. split; [reflexivity|]. split; [apply Keep, He1|]. exists (Ret (d ++ l_null) None). split; [exists N; split; [reflexivity | discriminate]|].
         right. split; [left; reflexivity|]. destruct Hh1 as (A & rr & B). exists s1, rr. auto. }
    destruct (check_opts opts) as [o|oe] eqn:Eo.
    2: { apply good_ret. split; [reflexivity|]. split; [apply Keep, pres_refl|]. exists (Ret [] (Some (EInvalidOption oe))). split; [exists N; cbn [AppendOpts]; rewrite Eo; split; [reflexivity | discriminate]|]. left. split; [discriminate|]. split; [unfold call_opts; rewrite Eo; reflexivity | reflexivity]. }
    assert (Ret_ : append_returns H m d (Some (t, w)) opts (any_of H o m N t w d)).
    { exists N. unfold AppendOpts. rewrite Eo. split; [reflexivity|]. intros X. apply Hf. rewrite <- Hr. exact X. }
    assert (Hf2 : any_of H o m N t w d <> OutOfFuel) by (intros X; apply Hf; rewrite <- Hr; exact X).
    unfold append_prog. cbn [fst snd].
    assert (IHr : forall c i p s d W L, den H W c i -> holds L s d -> exec H o m N i p d <> OutOfFuel -> good H (rpost W L s (exec H o m N i p d)) W [] L (run_body H o m c p s)) by (apply (run_ok H OK FR o m MB MA MT N)).
    eapply (run_then H (cpost (GAppend m s d (Some (t, w)) opts)) W W _ s _ s _ (any_of H o m N t w d)); [apply kincl_refl | apply ext_refl | apply (any_does H OK FR o m N IHr W t w (MV t w eq_refl) W _ s d (kincl_refl _) Hh Hf2)| |].
    - intros b err W3 L3 s3 Er HW3 Hh3 He3. apply good_ret. split; [reflexivity|]. split; [apply Keep, He3|]. eexists. split; [exact Ret_|]. rewrite Er. right. split; [right; unfold call_opts; rewrite Eo; discriminate|].
      destruct Hh3 as (A & rr & B). exists s3, rr. cbn [fst snd]. auto.
    - intros Er W3 L3 HW3 Hp3. split; [reflexivity|]. split; [apply Keep, Hp3|]. eexists. split; [exact Ret_|]. rewrite Er. reflexivity.
  Qed.

  Lemma call_start c W L : fine c -> call_heap c L -> good H (cpost c) W [] L (call_of H c).
  Proof.
    intros Hf Hh. destruct c as [m v opts|m s d v opts]; destruct Hf as [Hm Hr]; [|apply append_good; assumption]. cbn [call_heap] in Hh. subst L. apply marshal_good; assumption.
  Qed.

  Hypothesis SO : sort_ok H.

  Notation inv := (inv H cpost).
  Theorem reachable_inv_fine g : reachable H fine g -> exists ow Ls, inv g ow Ls.
  Proof. apply (reachable_inv H fine cpost cpost_mono cpost_ret cpost_panic call_start). Qed.

  Definition heap_of (g : gst) (a : nat) : option bytes := if (a <? sh_next (g_sh g))%nat then Some (sh_heap (g_sh g) a) else None.
  Lemma gives_heap c x L h : (forall a b, L a = Some b -> h a = Some b) -> gives c x L -> gives c x h.
  Proof.
    intros Hh. destruct c as [m v opts|m s d v opts]; cbn [gives].
    - intros (r & A & B). exists r. split; [exact A|]. destruct r; auto. destruct B as (s & B1 & B2 & B3). eauto.
    - intros ((rest & A0) & r & A & B). split; [eauto|]. exists r. split; [exact A|]. destruct r as [b err| |]; auto. destruct B as [B|(B0 & s' & rest' & B1 & B2 & B3)]; [left; exact B|]. right. split; [exact B0|]. eauto 6.
  Qed.
  Lemma inv_heap g ow Ls i a b : inv g ow Ls -> Ls i a = Some b -> heap_of g a = Some b.
  Proof.
    intros [AI _ _] Ha. destruct (ai_heap _ _ _ AI _ _ _ Ha) as [A B]. unfold heap_of. destruct (Nat.ltb_spec a (sh_next (g_sh g))); [congruence | lia].
  Qed.

  (** Results: what the same call returns when it is alone. *)
  Theorem call_results g i c r : reachable H fine g -> nth_error (g_thr g) i = Some (c, Running (PRet r)) -> gives c (Some r) (heap_of g).
  Proof.
    intros Hr Hn. destruct (reachable_inv_fine _ Hr) as (ow & Ls & I0). destruct (inv_finish H cpost cpost_mono cpost_ret _ _ _ _ _ _ I0 Hn) as [_ [_ X]].
    eapply gives_heap; [|exact X]. intros a b. eapply inv_heap; eauto.
  Qed.
  Theorem call_panics g i c : reachable H fine g -> nth_error (g_thr g) i = Some (c, Running PPanic) -> gives c None (heap_of g).
  Proof.
    intros Hr Hn. destruct (reachable_inv_fine _ Hr) as (ow & Ls & I0). destruct (inv_panic H cpost cpost_mono cpost_panic _ _ _ _ _ I0 Hn) as [_ [_ X]].
    eapply gives_heap; [|exact X]. intros a b. eapply inv_heap; eauto.
  Qed.

  (** ** Memory *)
  (** The arrays an action reads or writes. *)
  Definition touches (p : prog cres) (a : nat) : Prop :=
    match p with
    | POp o _ =>
      match o with
      | OAppend s _ | OWrite s _ _ | OCap s | ORead s | OSpoil s | OUser s _ | OPutBuf s => a = s_arr s
      | OAppendSub s r => a = s_arr s \/ a = r_arr r
      | OCopy d s => a = s_arr d \/ a = s_arr s
      | OSort l => exists kv, In kv l /\ (a = r_arr (fst kv) \/ a = r_arr (snd kv))
      | _ => False
      end
    | _ => False
    end.
  Lemma safe_touches W own L p Q a : good H Q W own L p -> touches p a -> L a <> None.
  Proof.
    intros Hg Ht. destruct p as [x| |o k|t ca q k|o m c p s k]; cbn [touches] in Ht; try contradiction. inversion Hg as [| |W1 own1 L1 o1 k1 Hs Hk| | ]; subst.
    destruct o; cbn [safe] in Hs; try contradiction; subst.
    all: try (destruct Hs as (c & Hc & _); congruence).
    all: try (destruct Hs as [(c & Hc & _) _]; congruence).
    - destruct Hs as [(c & Hc & _) Hr]. destruct Ht as [->| ->]; [congruence | exact Hr].
    - destruct Hs as [(c & Hc & _) (c2 & Hc2 & _)]. destruct Ht as [->| ->]; congruence.
    - destruct Ht as (kv & Hin & Ha). rewrite Forall_forall in Hs. destruct (Hs _ Hin) as [A B]. destruct Ha as [->| ->]; [exact A | exact B].
  Qed.

  Theorem no_race g i j ci cj p q a : reachable H fine g -> i <> j ->
    nth_error (g_thr g) i = Some (ci, Running p) -> nth_error (g_thr g) j = Some (cj, Running q) -> touches p a -> ~ touches q a.
  Proof.
    intros Hr Hne Hi Hj Hp Hq. destruct (reachable_inv_fine _ Hr) as (ow & Ls & [AI CI TI]).
    assert (Ti := TI i). assert (Tj := TI j). rewrite Hi in Ti. rewrite Hj in Tj.
    assert (A := safe_touches _ _ _ _ _ _ Ti Hp). assert (B := safe_touches _ _ _ _ _ _ Tj Hq). apply B. apply (ai_disj _ _ _ AI i j a Hne A).
  Qed.
  Theorem no_user_race g i c p a : reachable H fine g -> nth_error (g_thr g) i = Some (c, Running p) -> touches p a -> ~ In a (g_user g) /\ ~ In a (map s_arr (sh_pool (g_sh g))).
  Proof.
    intros Hr Hi Hp. destruct (reachable_inv_fine _ Hr) as (ow & Ls & [AI CI TI]). assert (Ti := TI i). rewrite Hi in Ti. assert (A := safe_touches _ _ _ _ _ _ Ti Hp). split.
    - intros Ha. destruct (ai_user _ _ _ AI _ Ha) as (_ & _ & X). apply A, X.
    - intros Ha. apply in_map_iff in Ha. destruct Ha as (b & <- & Hb). destruct (ai_pool _ _ _ AI _ Hb) as (_ & _ & X). apply A, X.
  Qed.
  Theorem pool_distinct g : reachable H fine g -> NoDup (map s_arr (sh_pool (g_sh g))) /\ forall a, In a (g_user g) -> ~ In a (map s_arr (sh_pool (g_sh g))).
  Proof.
    intros Hr. destruct (reachable_inv_fine _ Hr) as (ow & Ls & [AI CI TI]). split; [apply (ai_nodup _ _ _ AI)|]. intros a Ha. apply (ai_user _ _ _ AI _ Ha).
  Qed.

  Lemma set_arr_old h a c a' : a' <> a -> set_arr h a c a' = h a'. Proof. intros Hn. unfold set_arr. destruct (Nat.eqb_spec a' a); congruence. Qed.
  Lemma append_frame S s b S' s' a : append_to S s b S' s' -> (a < sh_next S)%nat -> a <> s_arr s -> sh_heap S' a = sh_heap S a.
  Proof. intros Hs Ha Hn. inversion Hs; subst; cbn [with_arr with_new with_heap sh_heap]; apply set_arr_old; [exact Hn | lia]. Qed.
  Lemma op_frame S o S' x k a : opstep H S o S' x -> (a < sh_next S)%nat -> ~ touches (POp o k) a -> sh_heap S' a = sh_heap S a.
  Proof.
    intros Hs Ha Ht. inversion Hs; subst; cbn [touches] in Ht; try reflexivity; try (cbn [with_arr with_heap sh_heap]; apply set_arr_old; tauto).
    - eapply append_frame; eauto.
    - eapply append_frame; eauto.
    - cbn [with_new with_heap sh_heap]. apply set_arr_old. lia.
    - cbn [with_arr with_new with_heap sh_heap sh_next]. rewrite set_arr_old by lia. apply set_arr_old. tauto.
  Qed.

  Definition spares (l : label) (a : nat) : Prop := match l with LWrite b => b <> a | LAppend s => s_arr s <> a | _ => True end.
  Lemma user_kept_step g l g' a : reachable H fine g -> gstep H fine g l g' -> In a (g_user g) -> spares l a -> In a (g_user g') /\ sh_heap (g_sh g') a = sh_heap (g_sh g) a.
  Proof.
    intros Hr Hs Ha Hl. destruct (reachable_inv_fine _ Hr) as (ow & Ls & [AI CI TI]). destruct (ai_user _ _ _ AI _ Ha) as (Hlt & _ & HN).
    inversion Hs; subst; cbn [g_user g_sh spares] in *.
    - split; [right; exact Ha|]. cbn [with_new with_heap sh_heap]. apply set_arr_old. lia.
    - split; [exact Ha|]. cbn [with_arr with_heap sh_heap]. apply set_arr_old. congruence.
    - split; [exact Ha | reflexivity].
    - split; [|reflexivity]. apply in_in_remove; [congruence | exact Ha].
    - split; [exact Ha|]. assert (Ti := TI i). match goal with X : nth_error _ _ = Some _ |- _ => rewrite X in Ti end.
      match goal with X : tstep _ _ _ _ _ |- _ => inversion X; subst end; try reflexivity. eapply op_frame; [eassumption | exact Hlt|]. intros Ht. eapply safe_touches; eauto.
    - split; [|reflexivity]. apply in_or_app. right. apply in_or_app. right. exact Ha.
    - split; [|reflexivity]. apply in_or_app. right. exact Ha.
    - split; [exact Ha | reflexivity].
    - split; [exact Ha | reflexivity].
    - split; [exact Ha | reflexivity].
  Qed.
  Lemma reachable_step g l g' : reachable H fine g -> gstep H fine g l g' -> reachable H fine g'.
  Proof.
    intros (ls & Hs) Hst. exists (ls ++ [l]). revert Hs. generalize (@g_init). intros g0 Hs. induction Hs as [g|g1 l1 g2 ls g3 H1 H2 IH]; cbn [app]; [eapply gs_step; [exact Hst | constructor] | eapply gs_step; eauto].
  Qed.
  (** What the user holds stays as the user left it. *)
  Theorem user_kept g ls g' a : reachable H fine g -> gsteps H fine g ls g' -> In a (g_user g) -> Forall (fun l => spares l a) ls -> In a (g_user g') /\ sh_heap (g_sh g') a = sh_heap (g_sh g) a.
  Proof.
    intros Hr Hs. revert Hr. induction Hs as [g|g l g1 ls g2 Hst Hss IH]; intros Hr Ha Hf; [auto|]. inversion Hf as [|y z Hl Hls]; subst.
    destruct (user_kept_step _ _ _ _ Hr Hst Ha Hl) as [A1 A2]. destruct (IH (reachable_step _ _ _ Hr Hst) A1 Hls) as [B1 B2]. split; [exact B1 | congruence].
  Qed.
  (** A result is in memory that nobody else has. *)
  Theorem result_fresh g i c s err : reachable H fine g -> nth_error (g_thr g) i = Some (c, Running (PRet (Some s, err))) ->
    ~ In (s_arr s) (g_user g) /\ ~ In (s_arr s) (map s_arr (sh_pool (g_sh g))) /\
    forall j cj q, j <> i -> nth_error (g_thr g) j = Some (cj, Running q) -> ~ touches q (s_arr s).
  Proof.
    intros Hr Hi. destruct (reachable_inv_fine _ Hr) as (ow & Ls & [AI CI TI]). assert (Ti := TI i). rewrite Hi in Ti. inversion Ti as [W own L x HQ| | | |]; subst.
    destruct (cpost_ret _ _ _ _ _ HQ) as [_ HL]. specialize (HL (s_arr s)). cbn [returned fst] in HL. assert (A : Ls i (s_arr s) <> None) by (apply HL; left; reflexivity). split; [|split].
    - intros Ha. destruct (ai_user _ _ _ AI _ Ha) as (_ & _ & X). apply A, X.
    - intros Ha. apply in_map_iff in Ha. destruct Ha as (b & Eb & Hb). destruct (ai_pool _ _ _ AI _ Hb) as (_ & _ & X). rewrite Eb in X. apply A, X.
    - intros j cj q Hne Hj Hq. assert (Tj := TI j). rewrite Hj in Tj. apply (safe_touches _ _ _ _ _ _ Tj Hq). apply (ai_disj _ _ _ AI i j); auto.
  Qed.

  (** ** No deadlock, no divergence *)
  Definition running (g : gst) : Prop := exists i c p, nth_error (g_thr g) i = Some (c, Running p).
  Theorem never_stuck g : reachable H fine g -> running g -> exists g', gact H g g'.
  Proof. intros Hr (i & c & p & Hi). destruct (reachable_inv_fine _ Hr) as (ow & Ls & I0). eapply (progress H SO cpost cpost_ret cpost_panic); eauto. Qed.
  Theorem always_ends g : reachable H fine g -> Acc (fun g' g => gact H g g') g.
  Proof. intros Hr. destruct (reachable_inv_fine _ Hr) as (ow & Ls & I0). eapply (terminates H fine cpost cpost_mono cpost_ret cpost_panic call_start); eauto. Qed.
End Calls.
