(** Calls to the API: what they return, and how it follows from the value the
    argument holds. *)
From Verif Require Import Base IntModel JsonSpec OptionsModel TypesModel TypesFacts TagsModel TagsProof TimeModel FloatModel LeafModel MemModel
  FieldsSpec FieldsModel FieldsProof FieldsThm InstrModel ExecModel ValueModel ExecMono ExecProof VencFacts.

(** ** Results of calls
    A call returns r when some amount of fuel suffices to compute r.  A run
    that needs unbounded fuel returns nothing. *)
Definition marshal_returns (H : host) (m : mem) (v : eface) (opts : list (option option_)) (r : mres) : Prop :=
  exists N, MarshalOpts H N m v opts = r /\ r <> MFuel.
Definition append_returns (H : host) (m : mem) (dst : bytes) (v : eface) (opts : list (option option_)) (r : res) : Prop :=
  exists N, AppendOpts H N m dst v opts = r /\ r <> OutOfFuel.

Lemma check_opts_ok opts o : call_opts opts = Some o -> check_opts opts = inl o.
Proof. unfold call_opts. destruct (check_opts opts); congruence. Qed.

(** Marshal and Append are the calls without options. *)
Lemma Marshal_opts H N m v : Marshal H N m v = MarshalOpts H N m v [].
Proof. destruct v; reflexivity. Qed.
Lemma Append_opts H N m dst v : Append H N m dst v = AppendOpts H N m dst v [].
Proof. destruct v; reflexivity. Qed.

Definition mres_of (r : res) : mres :=
  match r with Ret b None => MOk b | Ret _ (Some e) => MErr e | Crash => MCrash | OutOfFuel => MFuel end.

Lemma marshal_append H N m v o : marshal_json H N m v o = mres_of (append_json H o m N v []).
Proof. reflexivity. Qed.

Lemma AppendOpts_mono H N N' m dst v opts r : AppendOpts H N m dst v opts = r -> r <> OutOfFuel -> (N <= N')%nat -> AppendOpts H N' m dst v opts = r.
Proof.
  unfold AppendOpts. destruct v as [v|]; [|auto]. destruct (check_opts opts) as [o|]; [|auto]. intros Hr Hf Hn. eapply append_json_mono; eauto.
Qed.

Lemma MarshalOpts_mono H N N' m v opts r : MarshalOpts H N m v opts = r -> r <> MFuel -> (N <= N')%nat -> MarshalOpts H N' m v opts = r.
Proof.
  unfold MarshalOpts. destruct v as [v|]; [|auto]. destruct (check_opts opts) as [o|]; [|auto]. rewrite !marshal_append. intros <- Hf Hn.
  f_equal. destruct (append_json H o m N v []) as [b e| |] eqn:Ea; cbn in Hf; try congruence; (eapply append_json_mono; [exact Ea | discriminate | exact Hn]).
Qed.

(** A call returns at most one result. *)
Lemma marshal_returns_det H m v opts r1 r2 : marshal_returns H m v opts r1 -> marshal_returns H m v opts r2 -> r1 = r2.
Proof.
  intros (N1 & A1 & F1) (N2 & A2 & F2). apply (MarshalOpts_mono _ _ (Nat.max N1 N2)) in A1; [|auto|lia].
  apply (MarshalOpts_mono _ _ (Nat.max N1 N2)) in A2; [|auto|lia]. congruence.
Qed.
Lemma append_returns_det H m dst v opts r1 r2 : append_returns H m dst v opts r1 -> append_returns H m dst v opts r2 -> r1 = r2.
Proof.
  intros (N1 & A1 & F1) (N2 & A2 & F2). apply (AppendOpts_mono _ _ (Nat.max N1 N2)) in A1; [|auto|lia].
  apply (AppendOpts_mono _ _ (Nat.max N1 N2)) in A2; [|auto|lia]. congruence.
Qed.

(** ** Values *)
(** The outcome of encoding a value, from its tree only. *)
Definition outcome (out : bytes) (err : option gerr) : mres := match err with None => MOk out | Some e => MErr e end.

Section Calls.
  Variable H : host.
  Variable vcall : mkind -> typ -> val -> option Z -> bytes + Z.
  Hypothesis OK : host_ok H vcall.

  (** The encoding of a dynamic value under options o. *)
  Definition encodes (o : encOpts) (t : typ) (v : val) (out : bytes) (err : option gerr) : Prop :=
    exists n, venc_any H vcall o n t v = VRet out err.

  Lemma encodes_det o t v out1 err1 out2 err2 : encodes o t v out1 err1 -> encodes o t v out2 err2 -> out1 = out2 /\ err1 = err2.
  Proof.
    intros [n1 E1] [n2 E2].
    assert (A1 := venc_any_mono H vcall o n1 (Nat.max n1 n2) t v ltac:(lia) ltac:(rewrite E1; discriminate)).
    assert (A2 := venc_any_mono H vcall o n2 (Nat.max n1 n2) t v ltac:(lia) ltac:(rewrite E2; discriminate)).
    rewrite E1 in A1. rewrite E2 in A2. rewrite A1 in A2. injection A2 as -> ->. auto.
  Qed.

  (** Encoding memory gives the encoding of the value it holds, whatever else
      is in memory and already in the destination. *)
  Theorem append_value m td w v opts o dst out err :
    repr_any H m (Some (td, w)) (VIface td v) -> call_opts opts = Some o -> encodes o td v out err ->
    append_returns H m dst (Some (td, w)) opts (Ret (dst ++ out) err).
  Proof.
    intros Hr Ho [n Hn]. inversion Hr as [|td' w' v' Ht Hi Hd Hnd]; subst.
    assert (Hv := vany_runs H vcall OK o m n n td w v (good_all H vcall OK o m n) Ht Hi Hd Hnd).
    unfold venc_any in Hn. rewrite Hn in Hv. destruct (Hv dst) as [N HN]. exists N. unfold AppendOpts. rewrite (check_opts_ok _ _ Ho). split; [apply HN; lia | discriminate].
  Qed.

  Theorem marshal_value m td w v opts o out err :
    repr_any H m (Some (td, w)) (VIface td v) -> call_opts opts = Some o -> encodes o td v out err ->
    marshal_returns H m (Some (td, w)) opts (outcome out err).
  Proof.
    intros Hr Ho Hn. destruct (append_value m td w v opts o [] out err Hr Ho Hn) as (N & HN & _). exists N.
    unfold AppendOpts in HN. unfold MarshalOpts. rewrite (check_opts_ok _ _ Ho) in *. rewrite marshal_append, HN. split; [reflexivity | destruct err; discriminate].
  Qed.

  (** Every value either has an encoding or is outside the domain of the
      reference encoder. *)
  Theorem encodes_or_out o m td w v : repr_any H m (Some (td, w)) (VIface td v) ->
    (exists out err, encodes o td v out err) \/ (exists n, venc_any H vcall o n td v = VOut).
  Proof.
    intros Hr. inversion Hr as [|td' w' v' Ht Hi Hd Hnd]; subst.
    assert (He : ends H vcall o td v).
    { destruct (direct_dec H vcall OK td Ht) as [D|D]; eapply venc_total; eauto. }
    destruct (vany_nofuel H vcall OK o td v Ht He) as [n Hn]. specialize (Hn n (Nat.le_refl n)).
    destruct (venc_any H vcall o n td v) as [out err| |] eqn:Ev; [left; exists out, err, n; exact Ev | right; exists n; exact Ev | unfold venc_any in Ev; congruence].
  Qed.
End Calls.
