(** Histories, concurrency and memory: C31, C32, C33, C34. *)
From Coq Require Import Permutation Sorted.
From Verif Require Import Base IntModel JsonSpec OptionsModel EscapeModel TypesModel TypesFacts TagsModel TimeModel FloatModel LeafModel Base64Model MemModel FieldsModel FieldsProof FieldsThm InstrModel ExecModel ValueModel
  ExecMono ExecProof HostFacts VencFacts MarshalThm AppendThm EntriesFacts PartFacts SafeProof ApiFacts CallFacts ExampleHost ExampleConst ExampleRead Properties_Members Properties_Maps Properties_Api ConcModel ConcLogic ConcSound ConcGlobal ConcHeap ConcBuild ConcRun ConcCalls ConcExec.

(** A program to which the theorems apply: its types are valid, every recursive
    type passes through a struct, and sort.Sort sorts.  Its methods may panic. *)
Record program (H : host) : Prop := {
  pr_host : host_builds H;
  pr_refs : finite_refs (h_env H);
  pr_sort : sort_ok H
}.

(** The state [g] of some execution in which goroutine [i] is about to return
    [r] from call [c].  Anything may have happened before: any calls, finished
    or not, any scheduling of their steps, any reuse or loss of pooled buffers. *)
Definition returning (H : host) (g : gst) (i : nat) (c : gcall) (r : cres) : Prop :=
  reachable H (fine H) g /\ nth_error (g_thr g) i = Some (c, Running (PRet r)).
Definition panicking (H : host) (g : gst) (i : nat) (c : gcall) : Prop :=
  reachable H (fine H) g /\ nth_error (g_thr g) i = Some (c, Running PPanic).

(** What the caller sees of a result. *)
Definition text_of (g : gst) (r : cres) : option bytes * option gerr :=
  (match fst r with Some s => Some (firstn (s_len s) (sh_heap (g_sh g) (s_arr s))) | None => None end, snd r).

Lemma heap_of_some g a b : heap_of g a = Some b -> sh_heap (g_sh g) a = b.
Proof. unfold heap_of. destruct (a <? _)%nat; congruence. Qed.

(** ** C31: the output does not depend on history *)
Theorem C31_history H g i m v opts q r : program H -> marshal_returns H m v opts q -> returning H g i (GMarshal m v opts) r ->
  match q with
  | MOk b => text_of g r = (Some b, None)
  | MErr e => text_of g r = (None, Some e)
  | _ => False
  end.
Proof.
  intros [OK FR SO] Hq [Hg Hi]. destruct (call_results H OK FR g i _ r Hg Hi) as (q' & Hq' & C). rewrite (marshal_returns_det _ _ _ _ _ _ Hq Hq'). unfold text_of.
  destruct q' as [b|e| |]; try discriminate; try contradiction.
  - destruct C as (s & [= ->] & C & Hl). apply heap_of_some in C. cbn [fst snd]. rewrite C, Hl, firstn_all. reflexivity.
  - injection C as ->. reflexivity.
Qed.
Theorem C31_panic H g i m v opts q : program H -> marshal_returns H m v opts q -> panicking H g i (GMarshal m v opts) -> q = MCrash.
Proof.
  intros [OK FR SO] Hq [Hg Hi]. destruct (call_panics H OK FR g i _ Hg Hi) as (q' & Hq' & C). rewrite (marshal_returns_det _ _ _ _ _ _ Hq Hq').
  destruct q' as [b|e| |]; try reflexivity; try contradiction; [destruct C as (s & C & _); discriminate | discriminate].
Qed.
(** Two calls with the same options on values that are equal, in any two
    executions, wherever the values lie, return the same. *)
Theorem C31_same H vcall g1 g2 i1 i2 m1 m2 t w1 w2 v opts o r1 r2 : program H -> host_ok H vcall ->
  call H m1 t w1 v opts o -> call H m2 t w2 v opts o ->
  returning H g1 i1 (GMarshal m1 (Some (t, w1)) opts) r1 -> returning H g2 i2 (GMarshal m2 (Some (t, w2)) opts) r2 ->
  text_of g1 r1 = text_of g2 r2.
Proof.
  intros P OK C1 C2 R1 R2. destruct (call_returns H vcall OK m1 t w1 v opts o C1) as (out & err & A & B).
  assert (Q1 : marshal_returns H m1 (Some (t, w1)) opts (outcome out err)) by (apply B; reflexivity).
  assert (Q2 := proj1 (C28_memory_partial H vcall m1 m2 t w1 w2 v opts o OK C1 C2 _) Q1).
  assert (X1 := C31_history H g1 i1 m1 _ opts _ r1 P Q1 R1). assert (X2 := C31_history H g2 i2 m2 _ opts _ r2 P Q2 R2). destruct err; cbn [outcome] in *; congruence.
Qed.
Print Assumptions C31_history.
Print Assumptions C31_panic.
Print Assumptions C31_same.

(** ** C32: concurrent use *)
(** Append, like Marshal above, returns what it returns alone. *)
Theorem C32_append H g i m s d v opts q r : program H -> append_returns H m d v opts q -> returning H g i (GAppend m s d v opts) r ->
  exists b e, q = Ret b e /\
  (if match v with Some _ => true | None => false end && match call_opts opts with None => true | _ => false end
   then text_of g r = (None, e) else text_of g r = (Some b, e)).
Proof.
  intros [OK FR SO] Hq [Hg Hi]. destruct (call_results H OK FR g i _ r Hg Hi) as (_ & q' & Hq' & C). rewrite (append_returns_det _ _ _ _ _ _ _ Hq Hq'). unfold text_of.
  destruct q' as [b err| |]; try discriminate; try contradiction. exists b, err. split; [reflexivity|]. destruct C as [(A1 & A2 & [= ->])|(A1 & s' & rest & [= ->] & A2 & A3)].
  - destruct v; [|congruence]. rewrite A2. reflexivity.
  - apply heap_of_some in A3. cbn [fst snd]. rewrite A3, A2, firstn_app, Nat.sub_diag, firstn_O, app_nil_r, firstn_all.
    destruct v as [v|]; [|reflexivity]. destruct A1 as [A1|A1]; [discriminate|]. destruct (call_opts opts); [reflexivity | congruence].
Qed.
(** Some goroutine can always go on: none waits forever for a struct
    instruction that nobody completes. *)
Theorem C32_progress H g i c p : program H -> reachable H (fine H) g -> nth_error (g_thr g) i = Some (c, Running p) -> exists g', gact H g g'.
Proof. intros [OK FR SO] Hg Hi. apply (never_stuck H OK FR SO g Hg). exists i, c, p. exact Hi. Qed.
(** No schedule runs forever without new calls. *)
Theorem C32_ends H g : program H -> reachable H (fine H) g -> Acc (fun g' g => gact H g g') g.
Proof. intros [OK FR SO] Hg. apply (always_ends H OK FR g Hg). Qed.
(** So however the goroutines are scheduled, all calls end: an execution that
    goes on as long as a call runs comes to a state where none runs, and there is
    such an execution. *)
Inductive acts (H : host) : gst -> gst -> Prop :=
| acts_refl g : acts H g g
| acts_step g g1 g2 : gact H g g1 -> acts H g1 g2 -> acts H g g2.
Lemma running_or_not g : running g \/ ~ running g.
Proof.
  unfold running. assert (X : forall l : list (gcall * status), (exists i c p, nth_error l i = Some (c, Running p)) \/ ~ exists i c p, nth_error l i = Some (c, Running p)).
  { induction l as [|[c [p|r|]] l IHl]; [right; intros ([|i] & c & p & X); discriminate|left; exists 0%nat, c, p; reflexivity| |]; (destruct IHl as [(i & c' & p' & X)|X]; [left; exists (S i), c', p'; exact X|right; intros ([|i] & c' & p' & Y); [discriminate | apply X; exists i, c', p'; exact Y]]). }
  apply X.
Qed.
Theorem C32_completes H g : program H -> reachable H (fine H) g ->
  (forall run : nat -> gst, run 0%nat = g -> (forall k, running (run k) -> gact H (run k) (run (S k))) -> exists n, ~ running (run n)) /\
  exists g', acts H g g' /\ ~ running g'.
Proof.
  intros P Hg. assert (A := C32_ends H g P Hg). split.
  - induction A as [g _ IH]. intros run E Hr. destruct (running_or_not g) as [D|D]; [|exists 0%nat; rewrite E; exact D].
    assert (St := Hr 0%nat). rewrite E in St. specialize (St D). destruct (gact_step H (fine H) _ _ St) as [l Hl].
    destruct (IH _ St (reachable_step H _ _ _ Hg Hl) (fun k => run (S k)) eq_refl (fun k => Hr (S k))) as [n Hn]. exists (S n). exact Hn.
  - induction A as [g _ IH]. destruct (running_or_not g) as [D|D]; [|exists g; split; [constructor | exact D]].
    destruct (never_stuck H (pr_host H P) (pr_refs H P) (pr_sort H P) g Hg D) as [g1 St]. destruct (gact_step H (fine H) _ _ St) as [l Hl].
    destruct (IH g1 St (reachable_step H _ _ _ Hg Hl)) as (g' & B & C). exists g'. split; [eapply acts_step; eauto | exact C].
Qed.
(** Two goroutines never access the same byte array. *)
Theorem C32_no_race H g i j ci cj p q a : program H -> reachable H (fine H) g -> i <> j ->
  nth_error (g_thr g) i = Some (ci, Running p) -> nth_error (g_thr g) j = Some (cj, Running q) -> touches p a -> ~ touches q a.
Proof. intros [OK FR SO]. apply (no_race H OK FR). Qed.
Print Assumptions C32_append.
Print Assumptions C32_progress.
Print Assumptions C32_ends.
Print Assumptions C32_completes.
Print Assumptions C32_no_race.

(** ** C33: returned slices are never overwritten *)
(** A result lies in an array that is neither the user's, nor pooled, nor used by
    another goroutine; *)
Theorem C33_fresh H g i c s err : program H -> returning H g i c (Some s, err) ->
  ~ In (s_arr s) (g_user g) /\ ~ In (s_arr s) (map s_arr (sh_pool (g_sh g))) /\
  forall j cj q, j <> i -> nth_error (g_thr g) j = Some (cj, Running q) -> ~ touches q (s_arr s).
Proof. intros [OK FR SO] [Hg Hi]. apply (result_fresh H OK FR g i c s err Hg Hi). Qed.
(** then nothing but the user changes it. *)
Theorem C33_kept H g i c r g1 g2 ls : program H -> returning H g i c r -> gstep H (fine H) g (LFinish i c r) g1 -> gsteps H (fine H) g1 ls g2 ->
  (forall s, fst r = Some s -> Forall (fun l => spares l (s_arr s)) ls) -> text_of g2 r = text_of g r.
Proof.
  intros [OK FR SO] [Hg Hi] Hs Hss Hl. unfold text_of. destruct r as [[s|] err]; cbn [fst snd] in *; [|reflexivity]. specialize (Hl s eq_refl).
  inversion Hs as [| | | | |i' c' r' Hn| | | |]; subst.
  destruct (user_kept H OK FR _ _ _ (s_arr s) (reachable_step H _ _ _ Hg Hs) Hss) as [_ A]; [cbn [g_user returned fst]; left; reflexivity | exact Hl|]. cbn [g_sh] in A. rewrite A. reflexivity.
Qed.
(** The same for any other array of the user. *)
Theorem C33_user H g ls g' a : program H -> reachable H (fine H) g -> gsteps H (fine H) g ls g' -> In a (g_user g) -> Forall (fun l => spares l a) ls ->
  In a (g_user g') /\ sh_heap (g_sh g') a = sh_heap (g_sh g) a.
Proof. intros [OK FR SO]. apply (user_kept H OK FR). Qed.
(** Append leaves dst as it was, whether it returns or panics. *)
Theorem C33_dst H g i m s d v opts : program H -> (exists r, returning H g i (GAppend m s d v opts) r) \/ panicking H g i (GAppend m s d v opts) ->
  firstn (length d) (sh_heap (g_sh g) (s_arr s)) = d.
Proof.
  intros [OK FR SO] Hr. assert (X : exists x, gives H (GAppend m s d v opts) x (heap_of g)).
  { destruct Hr as [(r & Hg & Hi)|[Hg Hi]]; [exists (Some r); apply (call_results H OK FR g i _ r Hg Hi) | exists None; apply (call_panics H OK FR g i _ Hg Hi)]. }
  destruct X as (x & (rest & X) & _). apply heap_of_some in X. rewrite X, firstn_app, Nat.sub_diag, firstn_O, app_nil_r. apply firstn_all.
Qed.
(** The buffers in the pool are different, and nobody uses them. *)
Theorem C33_pool H g : program H -> reachable H (fine H) g ->
  NoDup (map s_arr (sh_pool (g_sh g))) /\ (forall a, In a (g_user g) -> ~ In a (map s_arr (sh_pool (g_sh g)))) /\
  (forall i c p a, nth_error (g_thr g) i = Some (c, Running p) -> touches p a -> ~ In a (g_user g) /\ ~ In a (map s_arr (sh_pool (g_sh g)))).
Proof.
  intros [OK FR SO] Hg. destruct (pool_distinct H OK FR g Hg) as [A B]. split; [exact A|]. split; [exact B|]. intros i c p a Hi Ht. eapply (no_user_race H OK FR); eauto.
Qed.
Print Assumptions C33_fresh.
Print Assumptions C33_kept.
Print Assumptions C33_user.
Print Assumptions C33_dst.
Print Assumptions C33_pool.

(** ** C34: building an instruction terminates *)
(** In any reachable state, a goroutine that builds the instruction of any type
    of a program whose recursive types all pass through a struct ([host_ok]),
    completes whatever else runs: no execution is infinite, none is stuck, and
    the build does not panic. *)
Definition build_call : gcall := GMarshal (fun _ => None) None [].
Definition building (H : host) (g : gst) (t : typ) : gst :=
  mkG (g_sh g) (g_user g) (g_thr g ++ [(build_call, Running (pbind (cached_prog H t) (fun _ => PRet (None, None))))]).

Section Build.
  Variable H : host.
  Hypothesis P : program H.
  Definition bq (c : gcall) : post cres := fun x W own L => cpost H c x W own L \/ (c = build_call /\ own = [] /\ x = Some (None, None)).
  Lemma bq_mono c : qmono (bq c).
  Proof. intros x W W' own L HW [A|A]; [left; eapply cpost_mono; eauto | right; exact A]. Qed.
  Lemma bq_ret c r W own L : bq c (Some r) W own L -> own = [] /\ forall a, In a (returned r ++ lent c) -> L a <> None.
  Proof. intros [A|(-> & -> & [= ->])]; [eapply cpost_ret; eauto|]. split; [reflexivity | intros a []]. Qed.
  Lemma bq_panic c W own L : bq c None W own L -> own = [] /\ forall a, In a (lent c) -> L a <> None.
  Proof. intros [A|(_ & _ & X)]; [eapply cpost_panic; eauto | discriminate]. Qed.
  Lemma bq_start c W L : fine H c -> call_heap c L -> good H (bq c) W [] L (call_of H c).
  Proof. intros Hf Hh. destruct P as [OK FR SO]. eapply good_conseq; [apply (call_start H OK FR c W L Hf Hh)|]. intros x W' own L' A. left. exact A. Qed.
  Lemma building_inv g t : reachable H (fine H) g -> typ_ok (h_letter H) (h_udigit H) t -> exists ow Ls, inv H bq (building H g t) ow Ls.
  Proof.
    intros Hg Tt. destruct P as [OK FR SO]. destruct (reachable_inv_fine H OK FR g Hg) as (ow & Ls & [AI CI TI]). 
    assert (TI' : thr_ok H bq (g_sh g) (g_thr g) ow Ls).
    { intros i. assert (X := TI i). destruct (nth_error (g_thr g) i) as [[c [p|r|]]|]; auto. eapply good_conseq; [exact X|]. intros x W own L A. left. exact A. }
    assert (G : good H (bq build_call) (Wof (g_sh g)) [] (Ls (length (g_thr g))) (pbind (cached_prog H t) (fun _ => PRet (None, None)))).
    { eapply good_bind; [apply (cached_ok H OK FR t _ [] _ Tt)| |].
      - intros c W own L (-> & _). apply good_ret. right. auto.
      - intros W own L (_ & _ & _ & c & X & _). discriminate. }
    exists ow, Ls. constructor; cbn [building g_sh g_user g_thr]; auto.
    intros i. assert (X := TI' i). destruct (Nat.lt_ge_cases i (length (g_thr g))) as [Hl|Hl]; [rewrite nth_error_app1 by exact Hl; exact X|].
    assert (N : nth_error (g_thr g) i = None) by (apply nth_error_None; exact Hl). rewrite N in X. rewrite nth_error_app2 by exact Hl.
    destruct (i - length (g_thr g))%nat as [|k] eqn:Ek; cbn [nth_error]; [|destruct k; exact X]. assert (i = length (g_thr g)) by lia. subst i. destruct X as [X1 X2]. rewrite X1. exact G.
  Qed.
  Lemma bq_acts g g' : acts H g g' -> forall ow Ls, inv H bq g ow Ls -> exists ow' Ls', inv H bq g' ow' Ls'.
  Proof.
    induction 1 as [g|g g1 g2 St _ IH]; intros ow Ls I0; [eauto|]. destruct (gact_step H (fine H) _ _ St) as [l Hl].
    destruct (inv_step H (fine H) bq bq_mono bq_ret bq_panic bq_start _ _ _ _ _ I0 Hl) as (ow1 & Ls1 & I1). eapply IH; eauto.
  Qed.
End Build.

Theorem C34_builds_partial H g t : program H -> reachable H (fine H) g -> typ_ok (h_letter H) (h_udigit H) t ->
  Acc (fun g' g => gact H g g') (building H g t) /\
  forall g', acts H (building H g t) g' ->
    (forall i c p, nth_error (g_thr g') i = Some (c, Running p) -> exists g'', gact H g' g'') /\
    nth_error (g_thr g') (length (g_thr g)) <> Some (build_call, Running PPanic).
Proof.
  intros P Hg Tt. destruct (building_inv H P g t Hg Tt) as (ow & Ls & I0). split.
  - eapply (terminates H (fine H) (bq H) (bq_mono H) (bq_ret H) (bq_panic H) (bq_start H P)); exact I0.
  - intros g' Ha. destruct (bq_acts H P _ _ Ha _ _ I0) as (ow' & Ls' & I1). split.
    + intros i c p Hi. destruct P as [OK FR SO]. eapply (progress H SO (bq H) (bq_ret H) (bq_panic H)); eauto.
    + intros Hi. destruct I1 as [_ _ TI]. assert (X := TI (length (g_thr g))). rewrite Hi in X. inversion X as [|W own L Q| | |]; subst. destruct Q as [[_ (r & (N & Q1 & _) & Q2)]|(_ & _ & Q)]; [|discriminate].
      cbn in Q1. subst r. destruct Q2 as (s & Q2 & _). discriminate.
Qed.

(** The instruction of any type, when no recursion avoids the structs. *)
Theorem C34_compile_partial H : wf_env (h_env H) -> guarded (h_env H) -> forall t ca q, exists n i, compile H n t ca q = Some i.
Proof. intros W G t ca q. apply (compile_total H W G t ca q). Qed.

(** type T []T *)
Definition selfH : host := constH [TSlice (TNamed 0)] (fun _ _ => false) null_result.
Lemma self_forever g : Acc (fun g' g => gact selfH g g') g -> forall i c ca q k, nth_error (g_thr g) i <> Some (c, Running (PBuild (TNamed 0) ca q k)).
Proof.
  induction 1 as [g _ IH]. intros i c ca q k Hi.
  set (g1 := mkG (g_sh g) (g_user g) (set_thr (g_thr g) i (c, Running (pbind (build_body selfH (TNamed 0) ca q) k)))).
  assert (St : gact selfH g g1). { exists i, c, (PBuild (TNamed 0) ca q k). split; [exact Hi|]. left. exists (g_sh g), (pbind (build_body selfH (TNamed 0) ca q) k). split; [constructor | reflexivity]. }
  apply (IH g1 St i c true false (fun x => pbind (PRet (KSlice x (h_size selfH (TNamed 0)))) k)). unfold g1. cbn [g_thr]. change set_thr with (@set_nth (gcall * status)).
  rewrite nth_set, Nat.eqb_refl by (eapply nth_some; exact Hi). destruct ca, q; reflexivity.
Qed.
Definition all_build (H : host) : Prop := forall g t, reachable H (fine H) g -> typ_ok (h_letter H) (h_udigit H) t -> Acc (fun g' g => gact H g g') (building H g t).
Theorem C34_self_refuted : ~ all_build selfH /\ forall n ca q, compile selfH n (TNamed 0) ca q = None.
Proof.
  split.
  - intros A. specialize (A g_init (TNamed 0)). assert (R : reachable selfH (fine selfH) g_init) by (exists []; constructor). specialize (A R I).
    set (g1 := mkG (g_sh g_init) [] [(build_call, Running (pbind (PBuild (TNamed 0) false false (fun i => PInlined (TNamed 0) (fun b => let i := if b then KInline i else i in PLoadCache (fun c => PStoreCache ((TNamed 0, i) :: c) (PRet i))))) (fun _ => PRet (None, None))))]).
    assert (St : gact selfH (building selfH g_init (TNamed 0)) g1).
    { exists 0%nat, build_call. eexists. split; [reflexivity|]. left. eexists _, _. split; [constructor; constructor | reflexivity]. }
    exact (self_forever g1 (Acc_inv A St) 0%nat build_call false false _ eq_refl).
  - assert (E : forall n ca q, compile selfH (S n) (TNamed 0) ca q = match compile selfH n (TNamed 0) true false with Some i => Some (ISlice i (h_size selfH (TNamed 0))) | None => None end).
    { intros n ca q. destruct ca, q; reflexivity. }
    induction n as [|n IH]; intros ca q; [reflexivity|]. rewrite E, IH. reflexivity.
Qed.
Print Assumptions C34_builds_partial.
Print Assumptions C34_compile_partial.
Print Assumptions C34_self_refuted.

(** ** Two goroutines that marshal a recursive type at the same time *)
Lemma ex_refs : finite_refs (h_env exH).
Proof. exists 2%nat. intros [|[|n]] a Ha; cbn in Ha; lia. Qed.
Definition ex_program : program exH := {| pr_host := host_ok_builds _ _ ex_ok; pr_refs := ex_refs; pr_sort := exH_sort |}.
Lemma ex_appends m : methods_append exH m.
Proof.
  intros k td w ctx. assert (B : forall b, (exists n, b = append_int [] n) \/ b = l_null -> bytes_ok b).
  { intros b [[n ->]|E]; [|subst b; apply bytes_okb_ok; reflexivity]. destruct (IntProof.append_int_spec [] n) as (s & -> & Hs). cbn [app]. apply IntProof.int_lit_jnumber, NumberProof.jnumber_chars in Hs.
    eapply Forall_impl; [|exact Hs]. unfold NumberProof.numchar, is_byte, digit. intros c. lia. }
  assert (G : exists b, ((exists n, b = append_int [] n) \/ b = l_null) /\ forall dst, h_call exH k td w m ctx dst = Some (inl match k with MCtx | MApp => dst ++ b | _ => b end)).
  { cbn [h_call exH]. unfold ex_call. eexists. split; [|intros dst; reflexivity].
    destruct td as [| | | | | | | | |e| | | | |n| | | | |]; auto; [destruct e as [| | | | | | | | | | | | | |n| | | | |]; auto|]; destruct n as [|[|n]]; auto.
    - destruct w as [[| |]|]; auto; destruct (rd_int m _ KInt); eauto.
    - destruct (rd_int m w KInt); eauto. }
  destruct G as (b & Hb & G). destruct k; try (intros dst; rewrite !G; reflexivity); intros b' Hb'; rewrite G in Hb'; injection Hb' as <-; apply B, Hb.
Qed.
Definition ex_cells : list (Z * cell) := 
  [(1000, CInt KInt 7); (1008, CPtr 2000); (1016, CType TString); (1024, CPtr 3000); (1032, CPtr 4000);
   (2000, CInt KInt (-1)); (2008, CPtr 0); (2016, CPtr 0); (2032, CPtr 0);
   (3000, CPtr 3100); (3008, CInt KInt 2); (3100, CInt KUint8 104); (3101, CInt KUint8 105);
   (4000, CMap [(4100, 4200); (4300, 4400)]);
   (4100, CPtr 4150); (4108, CInt KInt 1); (4150, CInt KUint8 98); (4200, CInt KInt 20);
   (4300, CPtr 4350); (4308, CInt KInt 1); (4350, CInt KUint8 97); (4400, CInt KInt (-5))].
Lemma lookup_in l a c : lookup l a = Some c -> In (a, c) l.
Proof. induction l as [|[b d] l IH]; cbn [lookup]; [discriminate|]. destruct (Z.eqb_spec a b) as [->|]; [intros [= ->]; left; reflexivity | right; auto]. Qed.
Lemma lookup_types H l : Forall (fun ac => match snd ac with
    | CType t => typ_ok (h_letter H) (h_udigit H) t
    | CSync es => Forall (fun kv => forall t w, fst kv = Some (t, w) \/ snd kv = Some (t, w) -> typ_ok (h_letter H) (h_udigit H) t) es
    | _ => True end) l -> mem_types_ok H (lookup l).
Proof.
  intros F. rewrite Forall_forall in F. split.
  - intros p t w. unfold rd_eface. destruct p as [a|w' off]; cbn [rd]; [|destruct (off =? 0); [destruct (w' =? 0)|]; discriminate].
    destruct (lookup l a) as [c|] eqn:Ea; [|discriminate]. apply lookup_in in Ea. apply F in Ea. cbn [snd] in Ea. destruct c; try discriminate; [destruct (_ =? 0); discriminate|].
    cbn [ladd rd]; destruct (lookup l (a + 8)) as [c2|]; [|discriminate]. destruct c2; try discriminate. intros [= <- _]. exact Ea.
  - intros p es k v t w Hr Hin Hv. destruct p as [a|w' off]; cbn [rd] in Hr; [|destruct (off =? 0); discriminate]. apply lookup_in in Hr. apply F in Hr. cbn [snd] in Hr.
    rewrite Forall_forall in Hr. exact (Hr _ Hin _ _ Hv).
Qed.
Lemma ex_fine_mem v : (forall t w, v = Some (t, w) -> typ_ok (h_letter exH) (h_udigit exH) t) -> mem_fine exH ex_mem v.
Proof.
  intros Tv. split; [|split; [apply ex_appends|split; [|exact Tv]]].
  - apply (lookup_bytes ex_cells). reflexivity.
  - apply (lookup_types exH ex_cells). repeat constructor.
Qed.

Definition ex_call1 : gcall := GMarshal ex_mem (Some (Node, 1000)) [].
Lemma ex_fine : fine exH ex_call1.
Proof. split; [apply ex_fine_mem; intros t w [= <- _]; exact I | exists (MOk ex_json); exact ex_marshal]. Qed.
(** Goroutines 0 and 1 marshal the value of ExampleHost.v, of the recursive type
    Node, from empty caches; goroutine 2 appends it to a slice of 4 bytes with
    room for 12 more. *)
Definition two : gst := mkG (g_sh g_init) [] [(ex_call1, Running (call_of exH ex_call1)); (ex_call1, Running (call_of exH ex_call1))].
Lemma two_reachable : reachable exH (fine exH) two.
Proof.
  eexists. eapply gs_step; [apply (g_marshal exH (fine exH) g_init ex_mem (Some (Node, 1000)) []); exact ex_fine|].
  eapply gs_step; [apply (g_marshal exH (fine exH) _ ex_mem (Some (Node, 1000)) []); exact ex_fine|]. constructor.
Qed.
Definition ex_dst : bytes := lit "abcd" ++ repeat 0 12.
Definition three : gst :=
  let c := GAppend ex_mem (mkSl 0 4) (lit "abcd") (Some (Node, 1000)) [] in
  mkG (with_new (g_sh g_init) ex_dst) [] (g_thr two ++ [(c, Running (call_of exH c))]).
Lemma ex_append : append_returns exH ex_mem (lit "abcd") (Some (Node, 1000)) [] (Ret (lit "abcd" ++ ex_json) None).
Proof. exists 30%nat. split; [vm_compute; reflexivity | discriminate]. Qed.
Lemma three_reachable : reachable exH (fine exH) three.
Proof.
  destruct two_reachable as [ls R]. assert (R1 := reachable_step exH two _ _ (ex_intro _ ls R) (g_alloc exH (fine exH) two ex_dst)).
  assert (F : fine exH (GAppend ex_mem (mkSl 0 4) (lit "abcd") (Some (Node, 1000)) [])).
  { split; [apply ex_fine_mem; intros t w [= <- _]; exact I | eexists; exact ex_append]. }
  assert (St := g_append exH (fine exH) (mkG (with_new (g_sh two) ex_dst) (sh_next (g_sh two) :: g_user two) (g_thr two)) ex_mem (mkSl 0 4) (Some (Node, 1000)) [] (lit "abcd") F (or_introl eq_refl)).
  cbn [g_sh s_len s_arr] in St. specialize (St ltac:(vm_compute; lia) eq_refl). exact (reachable_step exH _ _ _ R1 St).
Qed.
Lemma sched_reachable H is g : reachable H (fine H) g -> reachable H (fine H) (sched H g is).
Proof.
  intros (ls & R). destruct (sched_ok H (fine H) is g) as (ls' & R' & _). exists (ls ++ ls'). revert R. generalize (@g_init). intros g0 R. induction R as [g|g1 l g2 ls g3 S1 S2 IH]; cbn [app]; [exact R'|]. eapply gs_step; eauto.
Qed.
(** One step each in turn.  The second goroutine finds the placeholder of the
    first and waits; both get the same text. *)
Definition turns (n : nat) (is : list nat) : list nat := concat (repeat is n).
Definition sched2 (k : nat) : gst := sched exH two (turns k [0; 1]%nat).
Definition sched3 (k : nat) : gst := sched exH three (turns k [0; 1; 2]%nat).
Definition waiting (g : gst) (i : nat) : bool := match nth_error (g_thr g) i with Some (_, Running (POp (OWait _ _) _)) => true | _ => false end.
Definition runs (g : gst) (i : nat) : bool := match nth_error (g_thr g) i with Some (_, Running _) => true | _ => false end.
Definition returns (g : gst) (i : nat) : bool := match nth_error (g_thr g) i with Some (_, Running (PRet _)) => true | _ => false end.
Lemma runs_at g i : runs g i = true -> exists c p, nth_error (g_thr g) i = Some (c, Running p).
Proof. unfold runs. destruct (nth_error (g_thr g) i) as [[c [p|r|]]|]; try discriminate. eauto. Qed.
Lemma returns_at g i c : returns g i = true -> option_map fst (nth_error (g_thr g) i) = Some c -> exists r, nth_error (g_thr g) i = Some (c, Running (PRet r)).
Proof. unfold returns. destruct (nth_error (g_thr g) i) as [[c' [[]|r|]]|]; try discriminate. intros _ [= ->]. eauto. Qed.
Lemma sched2_runs : runs (sched2 20) 0 = true.
Proof. vm_compute. reflexivity. Qed.
Lemma sched2_returns : returns (sched2 105) 1 = true.
Proof. vm_compute. reflexivity. Qed.
Lemma sched2_call : option_map fst (nth_error (g_thr (sched2 105)) 1) = Some ex_call1.
Proof. vm_compute. reflexivity. Qed.
Lemma sched2_waits : waiting (sched2 20) 1 = true /\ waiting (sched2 40) 1 = false.
Proof. split; vm_compute; reflexivity. Qed.
Lemma sched2_reachable k : reachable exH (fine exH) (sched2 k).
Proof. apply sched_reachable, two_reachable. Qed.
Example C32_example_waits : waiting (sched2 20) 1 = true /\ waiting (sched2 40) 1 = false /\ exists g', gact exH (sched2 20) g'.
Proof.
  assert (W := sched2_waits). assert (R := sched2_runs). assert (Re := sched2_reachable 20). revert W R Re. generalize (sched2 20) (sched2 40). intros g g' [W1 W2] R Re.
  split; [exact W1|]. split; [exact W2|]. destruct (runs_at g 0 R) as (c & p & E). exact (C32_progress exH g 0 c p ex_program Re E).
Qed.
(** Goroutine 1 is about to return after 105 rounds, when goroutine 0 still runs. *)
Example C31_example : exists r, returning exH (sched2 105) 1 ex_call1 r /\ text_of (sched2 105) r = (Some ex_json, None).
Proof.
  assert (X := sched2_returns). assert (Y := sched2_call). assert (Re := sched2_reachable 105). revert X Y Re. generalize (sched2 105). intros g X Y Re.
  destruct (returns_at g 1 ex_call1 X Y) as [r R]. assert (G : returning exH g 1 ex_call1 r) by (split; [exact Re | exact R]).
  exists r. split; [exact G|]. exact (C31_history exH _ _ _ _ _ _ r ex_program ex_marshal G).
Qed.
(** When all three have returned: both texts, the appended slice and dst. *)
Example C33_example : result_of (sched3 120) 0 = Some (ex_json, None) /\ result_of (sched3 120) 1 = Some (ex_json, None) /\
  result_of (sched3 120) 2 = Some (lit "abcd" ++ ex_json, None) /\ firstn 4 (sh_heap (g_sh (sched3 120)) 0) = lit "abcd" /\ (1 <= length (sh_pool (g_sh (sched3 120))))%nat.
Proof. repeat split; vm_compute; try reflexivity. lia. Qed.
(** Node, its pointer, and maps of slices of it can be built at any moment. *)
Example C34_example : Acc (fun g' g => gact exH g g') (building exH (sched3 40) (TMap TString (TSlice (TPtr Node)))).
Proof. apply (C34_builds_partial exH _ _ ex_program); [apply sched_reachable, three_reachable | repeat constructor]. Qed.
Example C34_compile_example : wf_env ex_env /\ guarded ex_env.
Proof.
  split; [intros [|[|n]]; reflexivity|]. intros b. constructor. intros a Ha. exfalso. destruct b as [|[|b]]; cbn in Ha; inversion Ha.
Qed.

(** ** A method that panics *)
(** type T int; func (t T) AppendJSON(dst []byte) ([]byte, error), which panics
    when t is 0. *)
Definition boom_base : host := constH [TInt KInt] (fun t k => match t, k with TNamed 0, MApp | TPtr (TNamed 0), MApp => true | _, _ => false end) null_result.
Definition boom_call (k : mkind) (td : typ) (wl : loc) (m : mem) (ctx : option Z) (dst : bytes) : option (bytes + Z) :=
  match rd_int m wl KInt with Some 0 => None | _ => Some (inl (match k with MCtx | MApp => dst ++ l_null | _ => l_null end)) end.
Definition boomH : host := mkHost (h_env boom_base) (h_off boom_base) (h_size boom_base) (h_impl boom_base) boom_call
  (h_letter boom_base) (h_udigit boom_base) (h_fmt boom_base) (h_tofloat boom_base) (h_shortest boom_base) (h_sort boom_base).
Lemma boom_program : program boomH.
Proof.
  assert (B : host_builds boom_base).
  { apply (host_ok_builds _ (constV null_result)). apply constH_ok; [vm_compute; reflexivity|]. intros k td ctx b [= <-]. apply bytes_okb_ok. reflexivity. }
  constructor.
  - destruct B as [B1 B2 B3 B4]. constructor; [|exact B2 | exact B3 | exact B4]. destruct B1 as [C1 C2 C3]. constructor; [exact C1 | exact C2 | exact C3].
  - exists 1%nat. intros [|[|n]] a Ha; cbn in Ha; lia.
  - exact (constH_sort [TInt KInt] (h_impl boom_base) null_result).
Qed.
(** []T{7, 0} at 100 and []T{7, 8} at 200 *)
Definition boom_cells : list (Z * cell) :=
  [(100, CPtr 1000); (108, CInt KInt 2); (1000, CInt KInt 7); (1008, CInt KInt 0); (200, CPtr 2000); (208, CInt KInt 2); (2000, CInt KInt 7); (2008, CInt KInt 8)].
Definition boom_mem : mem := lookup boom_cells.
Definition boom (w : Z) : gcall := GMarshal boom_mem (Some (TSlice (TNamed 0), w)) [].
Lemma boom_returns : marshal_returns boomH boom_mem (Some (TSlice (TNamed 0), 100)) [] MCrash /\
  marshal_returns boomH boom_mem (Some (TSlice (TNamed 0), 200)) [] (MOk (lit "[null,null]")).
Proof. split; exists 10%nat; (split; [vm_compute; reflexivity | discriminate]). Qed.
Lemma boom_fine w : w = 100 \/ w = 200 -> fine boomH (boom w).
Proof.
  intros Hw. split.
  - split; [apply (lookup_bytes boom_cells); reflexivity|]. split.
    + intros k td w' ctx. assert (G : forall dst, h_call boomH k td w' boom_mem ctx dst = boom_call k td w' boom_mem ctx dst) by reflexivity.
      assert (J : bytes_ok l_null) by (apply bytes_okb_ok; reflexivity).
      destruct k.
      1-2: intros dst; rewrite (G dst), (G []); unfold boom_call; destruct (rd_int _ _ _) as [[| |]|]; reflexivity.
      all: intros b; rewrite G; unfold boom_call; destruct (rd_int _ _ _) as [[| |]|]; intros [= Eb]; rewrite <- Eb; exact J.
    + split; [apply (lookup_types boomH boom_cells); repeat constructor | intros t w' [= <- _]; repeat constructor].
  - destruct Hw as [-> | ->]; eexists; apply boom_returns.
Qed.
Definition boom_two : gst := mkG (g_sh g_init) [] [(boom 100, Running (call_of boomH (boom 100))); (boom 200, Running (call_of boomH (boom 200)))].
Lemma boom_reachable : reachable boomH (fine boomH) boom_two.
Proof.
  eexists. eapply gs_step; [apply (g_marshal boomH (fine boomH) g_init); exact (boom_fine 100 (or_introl eq_refl))|].
  eapply gs_step; [apply (g_marshal boomH (fine boomH)); exact (boom_fine 200 (or_intror eq_refl))|]. constructor.
Qed.
(** Goroutine 0 panics, and its buffer is not in the pool; goroutine 1 returns
    its text. *)
Definition boom_end (k : nat) : gst := sched boomH boom_two (turns k [0; 1]%nat).
Definition panicked (g : gst) (i : nat) : bool := match nth_error (g_thr g) i with Some (_, Panicked) => true | _ => false end.
Example C31_ex_panic : reachable boomH (fine boomH) (boom_end 80) /\ panicked (boom_end 80) 0 = true /\
  result_of (boom_end 80) 1 = Some (lit "[null,null]", None) /\ length (sh_pool (g_sh (boom_end 80))) = 1%nat.
Proof. split; [apply sched_reachable, boom_reachable|]. repeat split; vm_compute; reflexivity. Qed.

(** ** The other theorems on these executions *)
Definition panics (g : gst) (i : nat) : bool := match nth_error (g_thr g) i with Some (_, Running PPanic) => true | _ => false end.
Definition uses (g : gst) (i a : nat) : bool :=
  match nth_error (g_thr g) i with
  | Some (_, Running (POp (OAppend s _) _)) | Some (_, Running (POp (OPutBuf s) _)) => (a =? s_arr s)%nat
  | Some (_, Running (POp (OCopy d s) _)) => (a =? s_arr d)%nat || (a =? s_arr s)%nat
  | _ => false
  end.
Lemma uses_at g i a : uses g i a = true -> exists c p, nth_error (g_thr g) i = Some (c, Running p) /\ touches p a.
Proof.
  unfold uses. destruct (nth_error (g_thr g) i) as [[c [p|r|]]|]; try discriminate. destruct p as [|  |o k| | ]; try discriminate.
  destruct o; try discriminate; intros E; eexists _, _; (split; [reflexivity|]); cbn [touches]; lia.
Qed.
Definition result_arr (g : gst) (i : nat) : option nat := match nth_error (g_thr g) i with Some (_, Running (PRet (Some s, _))) => Some (s_arr s) | _ => None end.
Lemma result_at g i c a : result_arr g i = Some a -> option_map fst (nth_error (g_thr g) i) = Some c ->
  exists s err, nth_error (g_thr g) i = Some (c, Running (PRet (Some s, err))) /\ s_arr s = a.
Proof. unfold result_arr. destruct (nth_error (g_thr g) i) as [[c' [[[[s|] err]| | | | ]|r|]]|]; try discriminate. intros [= <-] [= ->]. eauto. Qed.

(** Goroutine 0 of the last execution panics after 16 rounds; alone it panics as
    well. *)
Example C31_ex_panic_alone : panics (boom_end 16) 0 = true /\ forall q, marshal_returns boomH boom_mem (Some (TSlice (TNamed 0), 100)) [] q -> q = MCrash.
Proof.
  assert (X : panics (boom_end 16) 0 = true) by (vm_compute; reflexivity). split; [exact X|]. intros q Hq.
  assert (Y : option_map fst (nth_error (g_thr (boom_end 16)) 0) = Some (boom 100)) by (vm_compute; reflexivity).
  assert (Re : reachable boomH (fine boomH) (boom_end 16)) by (apply sched_reachable, boom_reachable). revert X Y Re. generalize (boom_end 16). intros g X Y Re.
  apply (C31_panic boomH g 0 boom_mem (Some (TSlice (TNamed 0), 100)) [] q boom_program Hq). split; [exact Re|].
  unfold panics in X. destruct (nth_error (g_thr g) 0) as [[c [[]|r|]]|]; try discriminate. injection Y as ->. reflexivity.
Qed.
(** Goroutine 1 returns after 105 rounds and goroutine 0 after 108, in other
    arrays. *)
Lemma ex_call_ok : call exH ex_mem Node 1000 ex_val [] default_opts.
Proof.
  constructor; [exact ex_repr | reflexivity | apply (dyn_okb_ok exH 20); vm_compute; reflexivity|]. intros y. apply (readableb_ok exH default_opts 20). vm_compute. reflexivity.
Qed.
Example C31_ex_same : exists r1 r2, returning exH (sched2 105) 1 ex_call1 r1 /\ returning exH (sched2 108) 0 ex_call1 r2 /\ r1 <> r2 /\ text_of (sched2 105) r1 = text_of (sched2 108) r2.
Proof.
  assert (X1 : result_arr (sched2 105) 1 = Some 4%nat) by (vm_compute; reflexivity). assert (X2 : result_arr (sched2 108) 0 = Some 5%nat) by (vm_compute; reflexivity).
  assert (Y1 := sched2_call). assert (Y2 : option_map fst (nth_error (g_thr (sched2 108)) 0) = Some ex_call1) by (vm_compute; reflexivity).
  assert (R1 := sched2_reachable 105). assert (R2 := sched2_reachable 108). revert X1 X2 Y1 Y2 R1 R2. generalize (sched2 105) (sched2 108). intros g1 g2 X1 X2 Y1 Y2 R1 R2.
  destruct (result_at _ _ _ _ X1 Y1) as (s1 & e1 & A1 & B1). destruct (result_at _ _ _ _ X2 Y2) as (s2 & e2 & A2 & B2).
  assert (G1 : returning exH g1 1 ex_call1 (Some s1, e1)) by (split; assumption). assert (G2 : returning exH g2 0 ex_call1 (Some s2, e2)) by (split; assumption).
  exists (Some s1, e1), (Some s2, e2). split; [exact G1|]. split; [exact G2|]. split; [intros [= -> _]; congruence|].
  exact (C31_same exH ex_vcall g1 g2 1 0 ex_mem ex_mem Node 1000 1000 ex_val [] default_opts _ _ ex_program ex_ok ex_call_ok ex_call_ok G1 G2).
Qed.
(** Goroutine 2 of the three appends to abcd and returns after 102 rounds. *)
Definition ex_call2 : gcall := GAppend ex_mem (mkSl 0 4) (lit "abcd") (Some (Node, 1000)) [].
Lemma sched3_reachable k : reachable exH (fine exH) (sched3 k).
Proof. apply sched_reachable, three_reachable. Qed.
Lemma sched3_append : result_arr (sched3 102) 2 = Some 26%nat /\ option_map fst (nth_error (g_thr (sched3 102)) 2) = Some ex_call2.
Proof. split; vm_compute; reflexivity. Qed.
Example C32_ex_append : exists r, returning exH (sched3 102) 2 ex_call2 r /\ text_of (sched3 102) r = (Some (lit "abcd" ++ ex_json), None).
Proof.
  destruct sched3_append as [X Y]. assert (Re := sched3_reachable 102). revert X Y Re. generalize (sched3 102). intros g X Y Re.
  destruct (result_at _ _ _ _ X Y) as (s & e & A & _). assert (G : returning exH g 2 ex_call2 (Some s, e)) by (split; assumption). exists (Some s, e). split; [exact G|].
  destruct (C32_append exH g 2 _ _ _ _ _ _ _ ex_program ex_append G) as (b & e' & [= <- <-] & E). exact E.
Qed.
(** The scheduler that always runs the first goroutine that can go on. *)
Definition first_do (g : gst) : option gst :=
  match flat_map (fun i => match g_do exH g i with Some (_, g') => [g'] | None => [] end) (seq 0 (length (g_thr g))) with g' :: _ => Some g' | [] => None end.
Definition first_step (g : gst) : gst := match first_do g with Some g' => g' | None => g end.
Definition runningb (g : gst) : bool := existsb (fun c => match snd c with Running _ => true | _ => false end) (g_thr g).
Lemma runningb_ok g : runningb g = true <-> running g.
Proof.
  unfold runningb, running. rewrite existsb_exists. split.
  - intros ([c st] & A & B). cbn [snd] in B. destruct st as [p| | ]; try discriminate. destruct (In_nth_error _ _ A) as [i Hi]. exists i, c, p. exact Hi.
  - intros (i & c & p & Hi). exists (c, Running p). split; [eapply nth_error_In; exact Hi | reflexivity].
Qed.
Lemma g_do_act g i l g' : g_do exH g i = Some (l, g') -> gact exH g g'.
Proof.
  unfold g_do, gact. destruct (nth_error (g_thr g) i) as [[c [p|r|]]|] eqn:Ei; try discriminate. intros Hd. exists i, c, p. split; [exact Ei|].
  destruct p as [r| |o k|t ca q k|o m f p s k].
  - injection Hd as <- <-. right. left. exists r. auto.
  - injection Hd as <- <-. right. right. auto.
  - destruct (op_do exH (g_sh g) o) as [[S' x]|] eqn:Eo; [|discriminate]. injection Hd as <- <-. left. eexists _, _. split; [constructor; apply op_do_ok; exact Eo | reflexivity].
  - injection Hd as <- <-. left. eexists _, _. split; [constructor | reflexivity].
  - injection Hd as <- <-. left. eexists _, _. split; [constructor | reflexivity].
Qed.
Lemma first_do_act g g' : first_do g = Some g' -> gact exH g g'.
Proof.
  unfold first_do. destruct (flat_map _ _) as [|x l] eqn:E; [discriminate|]. intros [= ->]. assert (I : In g' (g' :: l)) by (left; reflexivity).
  rewrite <- E in I. apply in_flat_map in I. destruct I as (i & _ & I). destruct (g_do exH g i) as [[lb g1]|] eqn:D; [|destruct I]. destruct I as [<-|[]]. eapply g_do_act. exact D.
Qed.
Lemma first_do_idle g : ~ running g -> first_do g = None.
Proof.
  intros N. unfold first_do. destruct (flat_map _ _) as [|x l] eqn:E; [reflexivity|]. exfalso. assert (I : In x (x :: l)) by (left; reflexivity).
  rewrite <- E in I. apply in_flat_map in I. destruct I as (i & _ & I). destruct (g_do exH g i) as [[lb g1]|] eqn:D; [|destruct I].
  destruct (g_do_act _ _ _ _ D) as (j & c & p & Hj & _). apply N. exists j, c, p. exact Hj.
Qed.
Fixpoint goes_on (n : nat) (g : gst) : bool :=
  if runningb g then match first_do g with Some g' => match n with O => false | S n => goes_on n g' end | None => false end else true.
Lemma goes_on_ok : forall n g, goes_on n g = true -> forall k, running (Nat.iter k first_step g) -> gact exH (Nat.iter k first_step g) (Nat.iter (S k) first_step g).
Proof.
  assert (Sh : forall k g, Nat.iter (S k) first_step g = Nat.iter k first_step (first_step g)).
  { induction k as [|k IH]; intros g; [reflexivity|]. change (first_step (Nat.iter (S k) first_step g) = first_step (Nat.iter k first_step (first_step g))). f_equal. apply IH. }
  assert (Idle : forall g, ~ running g -> forall k, Nat.iter k first_step g = g).
  { intros g N. induction k as [|k IH]; [reflexivity|]. rewrite Sh. unfold first_step at 2. rewrite (first_do_idle _ N). exact IH. }
  induction n as [|n IH]; intros g G k R; cbn [goes_on] in G; destruct (runningb g) eqn:B.
  - destruct (first_do g); discriminate.
  - exfalso. assert (N : ~ running g) by (rewrite <- runningb_ok; congruence). rewrite (Idle g N) in R. exact (N R).
  - destruct (first_do g) as [g'|] eqn:F; [|discriminate]. assert (Fs : first_step g = g') by (unfold first_step; rewrite F; reflexivity).
    destruct k as [|k]; [change (gact exH g (first_step g)); rewrite Fs; apply first_do_act, F|]. rewrite Sh, Fs in R. rewrite (Sh (S k)), (Sh k), Fs. exact (IH g' G k R).
  - exfalso. assert (N : ~ running g) by (rewrite <- runningb_ok; congruence). rewrite (Idle g N) in R. exact (N R).
Qed.
Lemma three_goes_on : goes_on 400 three = true.
Proof. vm_compute. reflexivity. Qed.
Example C32_ex_completes : (exists n, ~ running (Nat.iter n first_step three)) /\ exists g', acts exH three g' /\ ~ running g'.
Proof.
  destruct (C32_completes exH three ex_program three_reachable) as [A B]. split; [|exact B]. exact (A (fun k => Nat.iter k first_step three) eq_refl (goes_on_ok _ _ three_goes_on)).
Qed.
Example C32_ex_ends : Acc (fun g' g => gact exH g g') (sched3 40).
Proof. exact (C32_ends exH _ ex_program (sched3_reachable 40)). Qed.
(** After 98 rounds goroutine 0 is about to append to array 2, and goroutine 1 to
    put back array 19. *)
Example C32_ex_no_race : uses (sched3 98) 0 2 = true /\ uses (sched3 98) 1 19 = true /\
  forall c p, nth_error (g_thr (sched3 98)) 1 = Some (c, Running p) -> ~ touches p 2.
Proof.
  assert (X : uses (sched3 98) 0 2 = true) by (vm_compute; reflexivity). assert (Y : uses (sched3 98) 1 19 = true) by (vm_compute; reflexivity).
  assert (Re := sched3_reachable 98). revert X Y Re. generalize (sched3 98). intros g X Y Re. split; [exact X|]. split; [exact Y|]. intros c p Hp.
  destruct (uses_at _ _ _ X) as (c0 & p0 & A & B). exact (C32_no_race exH g 0 1 c0 c p0 p 2 ex_program Re (Nat.neq_0_succ 0) A Hp B).
Qed.
(** Goroutine 1 of the three returns array 27 after 105 rounds: then the user has
    arrays 26 and 0, the pool arrays 1, 21, 20 and 19, and goroutine 0 runs. *)
Lemma sched3_second : result_arr (sched3 105) 1 = Some 27%nat /\ option_map fst (nth_error (g_thr (sched3 105)) 1) = Some ex_call1 /\
  g_user (sched3 105) = [26; 0]%nat /\ map s_arr (sh_pool (g_sh (sched3 105))) = [1; 21; 20; 19]%nat /\ runs (sched3 105) 0 = true.
Proof. repeat split; vm_compute; reflexivity. Qed.
Example C33_ex_fresh : forall c p, nth_error (g_thr (sched3 105)) 0 = Some (c, Running p) -> ~ touches p 27.
Proof.
  destruct sched3_second as (X & Y & _). assert (Re := sched3_reachable 105). revert X Y Re. generalize (sched3 105). intros g X Y Re c p Hp.
  destruct (result_at _ _ _ _ X Y) as (s & e & A & B). rewrite <- B. exact (proj2 (proj2 (C33_fresh exH g 1 ex_call1 s e ex_program (conj Re A))) 0%nat c p (Nat.neq_0_succ 0) Hp).
Qed.
Lemma sched_spares H a is g : exists ls, gsteps H (fine H) g ls (sched H g is) /\ Forall (fun l => spares l a) ls.
Proof.
  destruct (sched_ok H (fine H) is g) as (ls & A & B). exists ls. split; [exact A|]. apply Forall_forall. intros l Hl. destruct (B l Hl) as [-> |(i & c & r & ->)]; exact I.
Qed.
(** What it returned is the same when goroutine 0 has ended as well. *)
Example C33_ex_kept : exists r, returning exH (sched3 105) 1 ex_call1 r /\
  text_of (sched exH (sched exH (sched3 105) [1%nat]) (turns 10 [0; 2]%nat)) r = text_of (sched3 105) r.
Proof.
  destruct sched3_second as (X & Y & _). assert (Re := sched3_reachable 105). revert X Y Re. generalize (sched3 105). intros g X Y Re.
  destruct (result_at _ _ _ _ X Y) as (s & e & A & B). assert (G : returning exH g 1 ex_call1 (Some s, e)) by (split; assumption). exists (Some s, e). split; [exact G|].
  assert (D : g_do exH g 1 = Some (LFinish 1 ex_call1 (Some s, e), sched exH g [1%nat])) by (cbn [sched]; unfold g_do; rewrite A; reflexivity).
  destruct (sched_spares exH (s_arr s) (turns 10 [0; 2]%nat) (sched exH g [1%nat])) as (ls & L1 & L2).
  refine (C33_kept exH g 1 ex_call1 _ _ _ ls ex_program G (g_do_ok exH (fine exH) _ _ _ _ D) L1 _). intros s0 [= <-]. exact L2.
Qed.
(** So is array 26, which the user got from Append. *)
Example C33_ex_user : sh_heap (g_sh (sched exH (sched3 105) (turns 10 [0; 1]%nat))) 26 = sh_heap (g_sh (sched3 105)) 26.
Proof.
  destruct sched3_second as (_ & _ & U & _). assert (Re := sched3_reachable 105). revert U Re. generalize (sched3 105). intros g U Re.
  destruct (sched_spares exH 26 (turns 10 [0; 1]%nat) g) as (ls & L1 & L2). apply (C33_user exH g ls _ 26 ex_program Re L1); [rewrite U; left; reflexivity | exact L2].
Qed.
Example C33_ex_dst : firstn 4 (sh_heap (g_sh (sched3 102)) 0) = lit "abcd".
Proof.
  destruct sched3_append as [X Y]. assert (Re := sched3_reachable 102). revert X Y Re. generalize (sched3 102). intros g X Y Re.
  destruct (result_at _ _ _ _ X Y) as (s & e & A & _). exact (C33_dst exH g 2 ex_mem (mkSl 0 4) (lit "abcd") (Some (Node, 1000)) [] ex_program (or_introl (ex_intro _ _ (conj Re A)))).
Qed.
Example C33_ex_pool : map s_arr (sh_pool (g_sh (sched3 105))) = [1; 21; 20; 19]%nat /\ NoDup (map s_arr (sh_pool (g_sh (sched3 105)))).
Proof. split; [apply sched3_second | exact (proj1 (C33_pool exH _ ex_program (sched3_reachable 105)))]. Qed.
(** Slices of maps of Node, at any depth. *)
Example C34_ex_compile : exists n i, compile exH n (TSlice (TMap TString (TPtr Node))) false false = Some i.
Proof. exact (C34_compile_partial exH (proj1 C34_compile_example) (proj2 C34_compile_example) _ _ _). Qed.
