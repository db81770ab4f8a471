(** Calls to Marshal on values of a given kind: from the call to the encoder of
    that kind. *)
From Coq Require Import Permutation.
From Verif Require Import Base Utf8 JsonSpec NumberModel IntModel OptionsModel EscapeModel JsonParse CompactModel TypesModel TypesFacts TagsModel TagsProof TimeModel FloatModel FloatProof
  LeafModel LeafProof Base64Model MemModel FieldsSpec FieldsModel FieldsProof InstrModel ExecModel ValueModel ExecMono ExecProof VencFacts MarshalThm DocSpec EntriesFacts PartFacts DocProof SafeProof.

(** The argument of a call: the interface value (t, w) holds v of type t. *)
Definition holds (H : host) (m : mem) (t : typ) (w : Z) (v : val) : Prop := repr_any H m (Some (t, w)) (VIface t v).

Lemma call_opts_valid opts o : call_opts opts = Some o -> o_ctx o <> None /\ o_timeLayout o <> [] /\ dur_valid (o_durationFmt o) = true.
Proof.
  assert (Hv : forall o', validate o' = None -> o_ctx o' <> None /\ o_timeLayout o' <> [] /\ dur_valid (o_durationFmt o') = true).
  { intros o' Hv. unfold validate in Hv. destruct (o_ctx o') as [c|]; [|discriminate]. destruct (bytes_eqb (o_timeLayout o') []) eqn:El; [discriminate|].
    destruct (dur_valid (o_durationFmt o')); [|discriminate]. repeat split; try discriminate. intros C. rewrite C in El. discriminate. }
  unfold call_opts, check_opts. destruct opts as [|x opts]; [intros [= <-]; apply Hv; reflexivity|].
  cbv zeta. destruct (validate (apply default_opts (x :: opts))) eqn:Ev; [discriminate|]. intros [= <-]. apply Hv, Ev.
Qed.

Section Api.
  Variable H : host.
  Variable vcall : mkind -> typ -> val -> option Z -> bytes + Z.
  Hypothesis OK : host_ok H vcall.
  Notation E := (h_env H).
  Notation tok := (typ_ok (h_letter H) (h_udigit H)).

  Lemma holds_tok m t w v : holds H m t w v -> tok t.
  Proof. intros Hr. inversion Hr; assumption. Qed.

  Lemma holds_repr m t w v : holds H m t w v -> exists l, repr H m l t v.
  Proof.
    intros Hr. inversion Hr as [|td' w' v' Ht Hi Hd Hnd]; subst. destruct (direct_dec H vcall OK t Ht) as [D|D]; eauto.
  Qed.

  Lemma holds_held m t w v ca q : holds H m t w v -> held H m (t, ca, q, v).
  Proof. intros Hr. split; [eapply holds_tok; eauto | eapply holds_repr; eauto]. Qed.

  (** ** From the encoder of the type to the call *)
  Lemma encodes_venc o t v out err n : tok t -> dyn_ok H t -> venc H vcall o n t (is_ptr H t) false v = VRet out err ->
    encodes H vcall o t v out err.
  Proof.
    intros Ht Hd Hn. destruct (ok_direct _ _ OK t Ht) as (k1 & d & H1). destruct (ok_inlined _ _ OK t Ht) as (k2 & b & H2).
    exists (Nat.max n (Nat.max k1 k2)). unfold venc_any, vany.
    rewrite (is_direct_mono H k1 _ t d H1) by lia. rewrite (isInlined_mono H k2 _ t b H2) by lia.
    rewrite (dyn_ok_test H (Nat.max k1 k2) t d b Hd); [|apply (is_direct_mono H k1); [exact H1 | lia] | apply (isInlined_mono H k2); [exact H2 | lia]].
    rewrite (venc_mono H vcall o n); [exact Hn | lia | rewrite Hn; discriminate].
  Qed.

  Lemma encodes_inv o t v out err : encodes H vcall o t v out err -> exists n, venc H vcall o n t (is_ptr H t) false v = VRet out err.
  Proof.
    intros [n Hn]. exists n. unfold venc_any, vany in Hn. destruct (is_direct H n t) as [d|]; [|discriminate].
    destruct (isInlined H n t) as [i|]; [|discriminate]. destruct (Bool.eqb d i || opaque H t); [exact Hn | discriminate].
  Qed.

  Lemma encodes_any o t v n : venc_any H vcall o n t v = VOut -> forall out err, ~ encodes H vcall o t v out err.
  Proof.
    intros Hn out err [k Hk].
    assert (A1 := venc_any_mono H vcall o n (Nat.max n k) t v ltac:(lia) ltac:(rewrite Hn; discriminate)).
    assert (A2 := venc_any_mono H vcall o k (Nat.max n k) t v ltac:(lia) ltac:(rewrite Hk; discriminate)). congruence.
  Qed.

  (** What the call returns, and nothing else. *)
  Lemma marshal_iff m t w v opts o out err r : holds H m t w v -> call_opts opts = Some o -> encodes H vcall o t v out err ->
    (marshal_returns H m (Some (t, w)) opts r <-> r = outcome out err).
  Proof.
    intros Hr Ho He. assert (A := marshal_value H vcall OK m t w v opts o out err Hr Ho He).
    split; [intros B; eapply marshal_returns_det; eauto | intros ->; exact A].
  Qed.

  (** Kinds whose values are not stored directly in an interface. *)
  Lemma dyn_ok_indirect t : match under E t with TPtr _ | TMap _ _ | TChan | TFunc | TUnsafePointer | TStruct [_] | TArray 1 _ => False | _ => True end ->
    dyn_ok H t.
  Proof.
    intros Hu. right. intros D. exfalso. inversion D as [? e U|? k e U|? U|? U|? U|? d u U|? u U]; subst; rewrite U in Hu; exact Hu.
  Qed.

  Lemma venc_plain o n t ca q v : DocSpec.plain H t ca -> venc H vcall o (S n) t ca q v = vkind H o (venc H vcall o n) n t ca q v.
  Proof. intros [Hn Hm]. cbn [venc]. rewrite Hn, Hm. reflexivity. Qed.

  Lemma venc_native o n t ca q v : native t = true -> venc H vcall o (S n) t ca q v = vnative H o (venc H vcall o n) n t v.
  Proof. intros Hn. cbn [venc]. rewrite Hn. reflexivity. Qed.

  Lemma is_ptr_false t : (forall e, under E t <> TPtr e) -> is_ptr H t = false.
  Proof. intros Hu. unfold is_ptr. destruct (under E t); try reflexivity. destruct (Hu t0 eq_refl). Qed.

  Lemma encodes_kind o t v out err : tok t -> DocSpec.plain H t (is_ptr H t) -> dyn_ok H t ->
    (exists n, vkind H o (venc H vcall o n) n t (is_ptr H t) false v = VRet out err) -> encodes H vcall o t v out err.
  Proof. intros Ht Hp Hd [n Hn]. apply (encodes_venc o t v out err (S n) Ht Hd). rewrite venc_plain by exact Hp. exact Hn. Qed.

  Lemma encodes_string o t s : tok t -> under E t = TString -> DocSpec.plain H t false -> encodes H vcall o t (VStr s) (encode_string [] s o) None.
  Proof.
    intros Ht Hu Hp. assert (Ep : is_ptr H t = false) by (apply is_ptr_false; rewrite Hu; discriminate).
    apply encodes_kind; [exact Ht | rewrite Ep; exact Hp | apply dyn_ok_indirect; rewrite Hu; exact I|]. exists 0%nat. unfold vkind. rewrite Hu. reflexivity.
  Qed.

  Lemma encodes_int o t k n : tok t -> under E t = TInt k -> DocSpec.plain H t false -> encodes H vcall o t (VInt n) (encode_int k n []) None.
  Proof.
    intros Ht Hu Hp. assert (Ep : is_ptr H t = false) by (apply is_ptr_false; rewrite Hu; discriminate).
    apply encodes_kind; [exact Ht | rewrite Ep; exact Hp | apply dyn_ok_indirect; rewrite Hu; exact I|]. exists 0%nat. unfold vkind. rewrite Hu. reflexivity.
  Qed.

  Lemma encodes_float o t b f out err : tok t -> under E t = TFloat b -> DocSpec.plain H t false -> appendFloat (h_shortest H) [] f b = Ret out err ->
    encodes H vcall o t (VFloat f) out err.
  Proof.
    intros Ht Hu Hp Hf. assert (Ep : is_ptr H t = false) by (apply is_ptr_false; rewrite Hu; discriminate).
    apply encodes_kind; [exact Ht | rewrite Ep; exact Hp | apply dyn_ok_indirect; rewrite Hu; exact I|]. exists 0%nat. unfold vkind. rewrite Hu.
    cbn [vquote_if]. rewrite Hf. reflexivity.
  Qed.

  Lemma encodes_native o t v out err : native t = true -> t <> TSyncMap -> tok t ->
    (forall rec n, vnative H o rec n t v = VRet out err) -> encodes H vcall o t v out err.
  Proof.
    intros Hn Hs Ht Hv. apply (encodes_venc o t v out err 1 Ht); [|rewrite venc_native by exact Hn; apply Hv].
    apply dyn_ok_indirect. destruct t; try discriminate Hn; try exact I; congruence.
  Qed.

  (** ** The main statements, for calls *)
  Section Call.
    Variables (m : mem) (t : typ) (w : Z) (v : val) (opts : list (option option_)) (o : encOpts).
    Hypothesis Hr : holds H m t w v.
    Hypothesis Ho : call_opts opts = Some o.
    Let top : node := (t, is_ptr H t, false, v).

    (** A value whose parts can all be read is encoded or gives an error. *)
    Theorem readable_returns : dyn_ok H t -> all_readable H o top ->
      exists out err, encodes H vcall o t v out err /\ marshal_returns H m (Some (t, w)) opts (outcome out err).
    Proof.
      intros Hd Ha. destruct (encodes_or_out H vcall OK o m t w v Hr) as [(out & err & He)|[n Hn]].
      - exists out, err. split; [exact He | eapply marshal_value; eauto].
      - exfalso. exact (venc_any_safe H vcall OK o m n t v w Hr Hd Ha Hn).
    Qed.

    (** ... and, if all parts are encoded as documented, what is returned is
        compact JSON that means the value. *)
    Theorem sound_means lax out : shortest_ok (h_shortest H) -> sort_ok H -> esc_on o -> all_sound H vcall o lax top ->
      encodes H vcall o t v out None -> exists j, doc H vcall o t (is_ptr H t) false v j /\ json no_ws lax j out.
    Proof.
      intros Hsh Hso He Hs Hen. destruct (encodes_inv o t v out None Hen) as [n Hn]. destruct (call_opts_valid opts o Ho) as (_ & _ & Hdv).
      exact (venc_doc H vcall OK Hsh Hso o He Hdv m lax n t (is_ptr H t) false v out (holds_held m t w v _ _ Hr) Hs Hn).
    Qed.
  End Call.
End Api.
