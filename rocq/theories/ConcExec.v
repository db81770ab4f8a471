(** An executable scheduler, to show concrete executions of the machine. *)
From Coq Require Import Permutation.
From Verif Require Import Base IntModel JsonSpec OptionsModel TypesModel TypesFacts TagsModel MemModel FieldsModel InstrModel ExecModel ConcModel.

Fixpoint bytes_eqb (a b : bytes) : bool := match a, b with [], [] => true | x :: a, y :: b => (x =? y) && bytes_eqb a b | _, _ => false end.
Lemma bytes_eqb_ok : forall a b, bytes_eqb a b = true -> a = b.
Proof. induction a as [|x a IH]; intros [|y b] Hb; cbn in Hb; try discriminate; [reflexivity|]. apply andb_prop in Hb. destruct Hb as [A B]. f_equal; [lia | auto]. Qed.

Section Sched.
  Variable H : host.

  Fixpoint pick (h : nat -> bytes) (kv : bytes * bytes) (l : list kvsub) : option (kvsub * list kvsub) :=
    match l with
    | [] => None
    | x :: l => if bytes_eqb (fst (read_kv h x)) (fst kv) && bytes_eqb (snd (read_kv h x)) (snd kv) then Some (x, l)
                else match pick h kv l with Some (y, r) => Some (y, x :: r) | None => None end
    end.
  Fixpoint arrange (h : nat -> bytes) (kvs : list (bytes * bytes)) (l : list kvsub) : option (list kvsub) :=
    match kvs with
    | [] => match l with [] => Some [] | _ => None end
    | kv :: kvs => match pick h kv l with Some (x, r) => match arrange h kvs r with Some l' => Some (x :: l') | None => None end | None => None end
    end.
  Lemma pick_ok h kv : forall l x r, pick h kv l = Some (x, r) -> Permutation l (x :: r) /\ read_kv h x = kv.
  Proof.
    induction l as [|y l IH]; cbn [pick]; intros x r Hp; [discriminate|]. destruct (bytes_eqb _ _ && _) eqn:E.
    - injection Hp as <- <-. split; [reflexivity|]. apply andb_prop in E. destruct E as [E1 E2]. apply bytes_eqb_ok in E1, E2. destruct (read_kv h y), kv; cbn in *; congruence.
    - destruct (pick h kv l) as [[z r']|]; [|discriminate]. injection Hp as <- <-. destruct (IH _ _ eq_refl) as [A B]. split; [|exact B]. rewrite A. apply perm_swap.
  Qed.
  Lemma arrange_ok h : forall kvs l l', arrange h kvs l = Some l' -> Permutation l l' /\ map (read_kv h) l' = kvs.
  Proof.
    induction kvs as [|kv kvs IH]; cbn [arrange]; intros l l' Ha.
    - destruct l; [|discriminate]. injection Ha as <-. split; reflexivity.
    - destruct (pick h kv l) as [[x r]|] eqn:Ep; [|discriminate]. destruct (arrange h kvs r) as [l1|] eqn:Er; [|discriminate]. injection Ha as <-.
      destruct (pick_ok _ _ _ _ _ Ep) as [A B]. destruct (IH _ _ Er) as [C D]. split; [rewrite A, C; reflexivity|]. cbn [map]. congruence.
  Qed.

  Definition append_do (S : shared) (s : slice) (b : bytes) : shared * slice :=
    if (s_len s + length b <=? length (sh_heap S (s_arr s)))%nat
    then (with_arr S (s_arr s) (overwrite (sh_heap S (s_arr s)) (s_len s) b), mkSl (s_arr s) (s_len s + length b))
    else (with_new S (firstn (s_len s) (sh_heap S (s_arr s)) ++ b ++ []), mkSl (sh_next S) (s_len s + length b)).
  Lemma append_do_ok S s b : append_to S s b (fst (append_do S s b)) (snd (append_do S s b)).
  Proof. unfold append_do. destruct (Nat.leb_spec (s_len s + length b) (length (sh_heap S (s_arr s)))); cbn [fst snd]; constructor; assumption. Qed.

  (** A schedule fixes the order of steps; here the choices left open are: grow
      without spare room, take the first pooled buffer, write the bytes of a leaf in
      two pieces. *)
  Definition op_do (S : shared) (o : op) : option (shared * answer) :=
    match o with
    | OAppend s b => let '(S', s') := append_do S s b in Some (S', ASlice s')
    | OAppendSub s r => let '(S', s') := append_do S s (read_sub (sh_heap S) r) in Some (S', ASlice s')
    | OMake n => Some (with_new S (repeat 0 n), ASlice (mkSl (sh_next S) n))
    | OCopy d s => Some (with_arr S (s_arr d) (overwrite (sh_heap S (s_arr d)) 0 (firstn (Nat.min (s_len d) (s_len s)) (sh_heap S (s_arr s)))), AUnit)
    | OWrite s i b => Some (with_arr S (s_arr s) (overwrite (sh_heap S (s_arr s)) i b), AUnit)
    | OCap s => Some (S, ANat (length (sh_heap S (s_arr s))))
    | ORead s => Some (S, ABytes (firstn (s_len s) (sh_heap S (s_arr s))))
    | OSpoil s =>
      if (s_len s <=? length (sh_heap S (s_arr s)))%nat
      then Some (with_arr S (s_arr s) (firstn (s_len s) (sh_heap S (s_arr s)) ++ skipn (s_len s) (sh_heap S (s_arr s))), AUnit) else None
    | OUser s b =>
      if (s_len s + length b <=? length (sh_heap S (s_arr s)))%nat
      then Some (with_arr S (s_arr s) (firstn (s_len s) (sh_heap S (s_arr s)) ++ b ++ skipn (s_len s + length b) (sh_heap S (s_arr s))), ASlice (mkSl (s_arr s) (s_len s + length b)))
      else if (s_len s <=? length (sh_heap S (s_arr s)))%nat
      then Some (with_new (with_arr S (s_arr s) (firstn (s_len s) (sh_heap S (s_arr s)) ++ skipn (s_len s) (sh_heap S (s_arr s)))) (firstn (s_len s) (sh_heap S (s_arr s)) ++ b ++ []),
                 ASlice (mkSl (sh_next S) (s_len s + length b))) else None
    | OPieces b => Some (S, APieces [firstn 1 b; skipn 1 b])
    | OGetBuf => match sh_pool S with [] => Some (S, ASliceOpt None) | b :: l => Some (with_pool S l, ASliceOpt (Some b)) end
    | OPutBuf b => Some (with_pool S (b :: sh_pool S), AUnit)
    | OGetMel => match sh_mels S with [] => Some (S, AMelOpt None) | b :: l => Some (with_mels S l, AMelOpt (Some b)) end
    | OPutMel b => Some (with_mels S (b :: sh_mels S), AUnit)
    | OGetIter => match sh_iters S with [] => Some (S, AIterOpt None) | b :: l => Some (with_iters S l, AIterOpt (Some b)) end
    | OPutIter b => Some (with_iters S (b :: sh_iters S), AUnit)
    | OSort l => match arrange (sh_heap S) (h_sort H (map (read_kv (sh_heap S)) l)) l with Some l' => Some (S, AMel l') | None => None end
    | OLoadCache => Some (S, ACache (sh_icache S))
    | OStoreCache c => Some (with_icache S c, AUnit)
    | OLoadStruct t ca => Some (S, AClosOpt (lookup_key (sh_scache S) (t, ca)))
    | OLoadOrStoreStruct t ca =>
      match lookup_key (sh_scache S) (t, ca) with
      | Some c => Some (S, AClosOpt (Some c))
      | None => Some (with_holes (with_scache S ((t, ca, KWait t ca) :: sh_scache S)) ((t, ca, mkHole None false) :: sh_holes S), AClosOpt None)
      end
    | OSetIns t ca fs => match lookup_key (sh_holes S) (t, ca) with Some (mkHole i d) => Some (with_holes S ((t, ca, mkHole (Some fs) d) :: sh_holes S), AUnit) | None => None end
    | ODone t ca => match lookup_key (sh_holes S) (t, ca) with Some (mkHole i d) => Some (with_holes S ((t, ca, mkHole i true) :: sh_holes S), AUnit) | None => None end
    | OStoreStruct t ca c => Some (with_scache S ((t, ca, c) :: sh_scache S), AUnit)
    | OWait t ca => match lookup_key (sh_holes S) (t, ca) with Some (mkHole (Some fs) true) => Some (S, AIns fs) | _ => None end
    | OLoadFields t => Some (S, AFieldsOpt (lookup_typ (sh_fcache S) t))
    | OLoadOrStoreFields t fs => match lookup_typ (sh_fcache S) t with Some fs' => Some (S, AFields fs') | None => Some (with_fcache S ((t, fs) :: sh_fcache S), AFields fs) end
    | OLoadEmpty t => Some (S, ATypOpt (lookup_typ (sh_ecache S) t))
    | OLoadOrStoreEmpty t e => match lookup_typ (sh_ecache S) t with Some e' => Some (S, ATyp e') | None => Some (with_ecache S ((t, e) :: sh_ecache S), ATyp e) end
    | OStructFields t => match structFields H 20 t with Some fs => Some (S, AFields fs) | None => None end
    | OInlined t => match isInlined H 20 t with Some b => Some (S, ABool b) | None => None end
    end.
  Lemma op_do_ok S o S' x : op_do S o = Some (S', x) -> opstep H S o S' x.
  Proof.
    destruct o; cbn [op_do]; intros Hd.
    - assert (A := append_do_ok S s b). destruct (append_do S s b) as [S1 s1]. injection Hd as <- <-. constructor. exact A.
    - assert (A := append_do_ok S s (read_sub (sh_heap S) r)). destruct (append_do S s _) as [S1 s1]. injection Hd as <- <-. constructor. exact A.
    - injection Hd as <- <-. constructor.
    - injection Hd as <- <-. constructor.
    - injection Hd as <- <-. constructor.
    - injection Hd as <- <-. constructor.
    - injection Hd as <- <-. constructor.
    - destruct (Nat.leb_spec (s_len s) (length (sh_heap S (s_arr s)))); [|discriminate]. injection Hd as <- <-. constructor. rewrite skipn_length. lia.
    - destruct (Nat.leb_spec (s_len s + length b) (length (sh_heap S (s_arr s)))); [injection Hd as <- <-; apply t_user_in; rewrite skipn_length; lia|].
      destruct (Nat.leb_spec (s_len s) (length (sh_heap S (s_arr s)))); [|discriminate]. injection Hd as <- <-. apply t_user_new. rewrite skipn_length. lia.
    - injection Hd as <- <-. constructor. destruct b; cbn; rewrite ?app_nil_r; reflexivity.
    - destruct (sh_pool S) as [|b l] eqn:E; injection Hd as <- <-; [constructor|]. apply (t_get_some H S [] b l). exact E.
    - injection Hd as <- <-. constructor.
    - destruct (sh_mels S) as [|b l] eqn:E; injection Hd as <- <-; [constructor|]. apply (t_mel_some H S [] b l). exact E.
    - injection Hd as <- <-. constructor.
    - destruct (sh_iters S) as [|b l] eqn:E; injection Hd as <- <-; [constructor|]. apply (t_iter_some H S [] b l). exact E.
    - injection Hd as <- <-. constructor.
    - destruct (arrange _ _ l) as [l'|] eqn:E; [|discriminate]. injection Hd as <- <-. destruct (arrange_ok _ _ _ _ E). constructor; assumption.
    - injection Hd as <- <-. constructor.
    - injection Hd as <- <-. constructor.
    - injection Hd as <- <-. constructor.
    - destruct (lookup_key (sh_scache S) (t, ca)) eqn:E; injection Hd as <- <-; [eapply t_los_loaded | eapply t_los_stored]; exact E.
    - destruct (lookup_key (sh_holes S) (t, ca)) as [[i d]|] eqn:E; [|discriminate]. injection Hd as <- <-. eapply t_set_ins. exact E.
    - destruct (lookup_key (sh_holes S) (t, ca)) as [[i d]|] eqn:E; [|discriminate]. injection Hd as <- <-. eapply t_done. exact E.
    - injection Hd as <- <-. constructor.
    - destruct (lookup_key (sh_holes S) (t, ca)) as [[[i|] [|]]|] eqn:E; try discriminate. injection Hd as <- <-. eapply t_wait. exact E.
    - injection Hd as <- <-. constructor.
    - destruct (lookup_typ (sh_fcache S) t) eqn:E; injection Hd as <- <-; [eapply t_losf_loaded | eapply t_losf_stored]; exact E.
    - injection Hd as <- <-. constructor.
    - destruct (lookup_typ (sh_ecache S) t) eqn:E; injection Hd as <- <-; [eapply t_lose_loaded | eapply t_lose_stored]; exact E.
    - destruct (structFields H 20 t) eqn:E; [|discriminate]. injection Hd as <- <-. econstructor. exact E.
    - destruct (isInlined H 20 t) eqn:E; [|discriminate]. injection Hd as <- <-. econstructor. exact E.
  Qed.

  (** One step of goroutine [i], if it is not blocked or finished. *)
  Definition g_do (g : gst) (i : nat) : option (label * gst) :=
    match nth_error (g_thr g) i with
    | Some (c, Running p) =>
      match p with
      | PRet r => Some (LFinish i c r, mkG (g_sh g) (returned r ++ lent c ++ g_user g) (set_thr (g_thr g) i (c, Finished r)))
      | PPanic => Some (LTau, mkG (g_sh g) (lent c ++ g_user g) (set_thr (g_thr g) i (c, Panicked)))
      | POp o k => match op_do (g_sh g) o with Some (S', x) => Some (LTau, mkG S' (g_user g) (set_thr (g_thr g) i (c, Running (k x)))) | None => None end
      | PBuild t ca q k => Some (LTau, mkG (g_sh g) (g_user g) (set_thr (g_thr g) i (c, Running (pbind (build_body H t ca q) k))))
      | PRun o m f p s k => Some (LTau, mkG (g_sh g) (g_user g) (set_thr (g_thr g) i (c, Running (pbind (run_body H o m f p s) k))))
      end
    | _ => None
    end.
  Lemma g_do_ok starts g i l g' : g_do g i = Some (l, g') -> gstep H starts g l g'.
  Proof.
    unfold g_do. destruct (nth_error (g_thr g) i) as [[c [p|r|]]|] eqn:Ei; try discriminate. destruct p as [r| |o k|t ca q k|o m f p s k]; intros Hd.
    - injection Hd as <- <-. eapply g_finish. exact Ei.
    - injection Hd as <- <-. eapply g_panic. exact Ei.
    - destruct (op_do (g_sh g) o) as [[S' x]|] eqn:Eo; [|discriminate]. injection Hd as <- <-. eapply g_act; [exact Ei|]. constructor. apply op_do_ok. exact Eo.
    - injection Hd as <- <-. eapply g_act; [exact Ei|]. constructor.
    - injection Hd as <- <-. eapply g_act; [exact Ei|]. constructor.
  Qed.

  (** [sched g [i; j; ..]]: the goroutines [i], [j], … step in turn; a blocked or
      finished one is skipped. *)
  Fixpoint sched (g : gst) (is : list nat) : gst :=
    match is with
    | [] => g
    | i :: is => match g_do g i with Some (_, g') => sched g' is | None => sched g is end
    end.
  Lemma sched_ok starts : forall is g, exists ls, gsteps H starts g ls (sched g is) /\ forall l, In l ls -> l = LTau \/ exists i c r, l = LFinish i c r.
  Proof.
    induction is as [|i is IH]; intros g; cbn [sched]; [exists []; split; [constructor | intros l []]|].
    destruct (g_do g i) as [[l g']|] eqn:Ed; [|apply IH]. destruct (IH g') as (ls & A & B). exists (l :: ls). split; [eapply gs_step; [eapply g_do_ok; exact Ed | exact A]|].
    intros l' [<-|Hl]; [|apply B, Hl]. unfold g_do in Ed. destruct (nth_error (g_thr g) i) as [[c [p|r|]]|]; try discriminate.
    destruct p as [r| |o k|t ca q k|o m f p s k]; try (injection Ed as <- <-; eauto 6; fail). destruct (op_do (g_sh g) o) as [[S' x]|]; [|discriminate]. injection Ed as <- <-. auto.
  Qed.
  Definition result_of (g : gst) (i : nat) : option (bytes * option gerr) :=
    match nth_error (g_thr g) i with
    | Some (_, Finished (Some s, err)) => Some (firstn (s_len s) (sh_heap (g_sh g) (s_arr s)), err)
    | _ => None
    end.
End Sched.
