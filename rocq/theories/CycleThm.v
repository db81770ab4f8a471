(** Well-typed memory, which may hold cyclic data, and a cycle on which the
    encoder does not return. *)
From Verif Require Import Base IntModel OptionsModel TypesModel TypesFacts TimeModel FloatModel MemModel FieldsModel FieldsProof InstrModel ExecModel ValueModel ExecMono ExecProof
  MarshalThm ExampleHost ApiFacts ExampleRead.

Section Typed.
  Variable H : host.
  Variable m : mem.
  Notation E := (h_env H).
  Notation tok := (typ_ok (h_letter H) (h_udigit H)).

  (** Memory at l holds a value of type t, as far as n pointers, headers and
      interfaces away. *)
  Inductive typed : nat -> loc -> typ -> Prop :=
  | T_far l t : typed 0 l t
  | T_bool n l t b : under E t = TBool -> rd m l = Some (CBool b) -> typed n l t
  | T_int n l t k x : under E t = TInt k -> rd_int m l k = Some x -> int_range k x -> typed n l t
  | T_float n l t b f : under E t = TFloat b -> rd m l = Some (CFloat b f) -> typed n l t
  | T_str n l t s : under E t = TString -> rd_string m l = Some s -> bytes_ok s -> typed n l t
  | T_nil n l t : under E t <> TString -> isNilable E t = true -> rd m l = Some (CPtr 0) ->
      ((exists e, under E t = TSlice e) -> rd_int m (ladd l 8) KInt = Some 0) -> typed n l t
  | T_ptr n l t e a : under E t = TPtr e -> rd m l = Some (CPtr a) -> 0 < a -> typed n (LMem a) e -> typed (S n) l t
  | T_iface n l t ms td w : under E t = TIface ms ->
      rd m l = Some (match ms with None => CType td | Some _ => CTab td end) -> rd m (ladd l 8) = Some (CPtr w) ->
      tok td -> is_iface H td = false ->
      (direct H td -> typed n (LTmp w 0) td) -> (~ direct H td -> typed n (LMem w) td) ->
      typed (S n) l t
  | T_slice n l t e a k : under E t = TSlice e -> rd_header m l = Some (a, k) -> 0 < a ->
      (forall i, 0 <= i < k -> typed n (LMem (a + i * h_size H e)) e) -> typed (S n) l t
  | T_arr n l t k e : under E t = TArray k e ->
      (forall i, (i < k)%nat -> typed n (ladd l (Z.of_nat i * h_size H e)) e) -> typed (S n) l t
  | T_map n l t k e a addrs : under E t = TMap k e -> rd m l = Some (CPtr a) -> 0 < a -> m a = Some (CMap addrs) ->
      (forall ka va, In (ka, va) addrs -> typed n (LMem ka) k /\ typed n (LMem va) e) -> typed (S n) l t
  | T_struct n l t fs : under E t = TStruct fs -> t <> TTime -> t <> TSyncMap ->
      (forall i d u, nth_error fs i = Some (d, u) -> typed n (ladd l (h_off H fs i)) u) -> typed (S n) l t
  | T_time n l g : rd m l = Some (CTime g) -> gtime_ok g -> typed n l TTime
  | T_sync n l efs : rd m l = Some (CSync efs) ->
      (forall ke ve, In (ke, ve) efs -> typed_any n ke /\ typed_any n ve) -> typed (S n) l TSyncMap
  | T_opaque n l t : opaque H t = true -> typed n l t
  with typed_any : nat -> eface -> Prop :=
  | TA_nil n : typed_any n None
  | TA_some n td w : tok td -> is_iface H td = false ->
      (direct H td -> typed n (LTmp w 0) td) -> (~ direct H td -> typed n (LMem w) td) ->
      typed_any n (Some (td, w)).

  (** A value that memory holds is well typed at any distance. *)
  Lemma repr_typed l t v (R : repr H m l t v) : forall n, typed n l t
  with repr_any_typed e v (R : repr_any H m e v) : forall n, typed_any n e.
  Proof.
    - destruct R as [l t b U r|l t k x U r G|l t b f U r|l t s U r G|l t U N r G|l t e a v U r P R|l t ms td w v U r1 r2 T I R1 R2|l t e a vs U r P R|l t k e vs U L R
        |l t k e a addrs es U r P M L R|l t fs vs U N1 N2 L R|l g r G|l efs es r L R|l t O]; intros [|n]; try solve [apply T_far].
      + eapply T_bool; eauto.
      + eapply T_int; eauto.
      + eapply T_float; eauto.
      + eapply T_str; eauto.
      + apply T_nil; assumption.
      + eapply T_ptr; eauto.
      + eapply T_iface; [exact U|exact r1|exact r2|exact T|exact I| |]; intros D.
        * apply (repr_typed _ _ _ (R1 D)).
        * apply (repr_typed _ _ _ (R2 D)).
      + eapply T_slice; [exact U|exact r|exact P|]. intros i Hi. destruct (nth_error vs (Z.to_nat i)) as [v|] eqn:En.
        * assert (A := repr_typed _ _ _ (R _ _ En) n). rewrite Z2Nat.id in A by lia. exact A.
        * apply nth_error_None in En. lia.
      + eapply T_arr; [exact U|]. intros i Hi. destruct (nth_error vs i) as [v|] eqn:En.
        * apply (repr_typed _ _ _ (R _ _ En)).
        * apply nth_error_None in En. lia.
      + eapply T_map; [exact U|exact r|exact P|exact M|]. intros ka va Hi. apply In_nth_error in Hi. destruct Hi as [i Hi].
        destruct (nth_error es i) as [[kv vv]|] eqn:En.
        * destruct (R _ _ _ _ _ Hi En) as [A B]. split; [apply (repr_typed _ _ _ A) | apply (repr_typed _ _ _ B)].
        * apply nth_error_None in En. assert (i < length addrs)%nat by (apply nth_error_Some; congruence). lia.
      + eapply T_struct; [exact U|exact N1|exact N2|]. intros i d u Hi. destruct (nth_error vs i) as [v|] eqn:En.
        * apply (repr_typed _ _ _ (R _ _ _ _ Hi En)).
        * apply nth_error_None in En. assert (i < length fs)%nat by (apply nth_error_Some; congruence). lia.
      + eapply T_time; eauto.
      + eapply T_sync; [exact r|]. intros ka va Hi. apply In_nth_error in Hi. destruct Hi as [i Hi].
        destruct (nth_error es i) as [[kv vv]|] eqn:En.
        * destruct (R _ _ _ _ _ Hi En) as [A B]. split; [apply (repr_any_typed _ _ A) | apply (repr_any_typed _ _ B)].
        * apply nth_error_None in En. assert (i < length efs)%nat by (apply nth_error_Some; congruence). lia.
      + apply T_opaque; assumption.
    - destruct R as [|td w v T I R1 R2]; intros n; [apply TA_nil|]. apply TA_some; [exact T|exact I| |]; intros D.
      + apply (repr_typed _ _ _ (R1 D)).
      + apply (repr_typed _ _ _ (R2 D)).
  Qed.
End Typed.

(** ** A cycle
    [n := Node{Val: 1}; n.Next = &n], with ExampleHost's Node. *)
Definition cyc_mem : mem := fun a =>
  if a =? 1000 then Some (CInt KInt 1) else if a =? 1008 then Some (CPtr 1000)
  else if a =? 1016 then Some (CPtr 0) else if a =? 1032 then Some (CPtr 0) else None.

Lemma cyc_node n : typed exH cyc_mem n (LMem 1000) Node.
Proof.
  induction n as [n IH] using (well_founded_induction lt_wf). destruct n as [|n]; [apply T_far|].
  eapply T_struct; [reflexivity | discriminate | discriminate|]. intros i d u Hi.
  destruct i as [|[|[|[|i]]]]; cbn in Hi; [injection Hi as <- <- ..|destruct i; discriminate].
  - eapply T_int; [reflexivity|reflexivity|unfold int_range; cbn; lia].
  - destruct n as [|n]; [apply T_far|]. eapply T_ptr; [reflexivity|reflexivity|lia|]. apply IH. lia.
  - apply T_nil; try discriminate; try reflexivity. intros [e X]. discriminate.
  - apply T_nil; try discriminate; try reflexivity. intros [e X]. discriminate.
Qed.

Lemma cyc_typed n : typed_any exH cyc_mem n (Some (TPtr Node, 1000)).
Proof.
  apply TA_some.
  - cbn. auto.
  - reflexivity.
  - intros _. destruct n as [|n]; [apply T_far|]. eapply T_ptr; [reflexivity|reflexivity|lia|apply cyc_node].
  - intros D. exfalso. apply D. eapply d_ptr. reflexivity.
Qed.

Definition node_body : list sfield := match struct_body exH 10 Node true with Some fs => fs | None => [] end.
Lemma node_body_at f ca fs : ca = true -> struct_body exH f Node ca = Some fs -> fs = node_body.
Proof.
  intros -> E. assert (X : struct_body exH (f + 10) Node true = Some node_body).
  { apply (struct_body_mono exH 10); [vm_compute; reflexivity | lia]. }
  apply (struct_body_mono exH f (f + 10)) in E; [congruence | lia].
Qed.

Lemma cyc_exec o : (forall s, isDeniedField o s = false) -> forall f dst, exec exH o cyc_mem f (IStruct Node true) (LMem 1000) dst = OutOfFuel.
Proof.
  intros Hd f. induction f as [f IH] using (well_founded_induction lt_wf). intros dst. destruct f as [|f]; [reflexivity|].
  cbn [exec]. destruct (struct_body exH f Node true) as [fs|] eqn:Eb; [|reflexivity].
  apply node_body_at in Eb; [|reflexivity]. subst fs.
  let b := eval vm_compute in node_body in change node_body with b.
  cbn [exec_fields sf_name sf_seq sf_omitNil sf_omitNull sf_empty sf_instr follow onSome]. rewrite !Hd.
  destruct f as [|f]; [reflexivity|]. cbn [exec].
  change (rd_int cyc_mem (ladd (LMem 1000) 0) KInt) with (Some 1). cbn [onSome bind].
  change (is_empty exH cyc_mem (TPtr (TNamed 0)) (ladd (LMem 1000) 8)) with (Some false). cbn [onSome].
  change (rd_word cyc_mem (ladd (LMem 1000) 8)) with (Some (WPtr 1000)). cbn iota.
  rewrite IH by lia. reflexivity.
Qed.

Lemma cyc_marshal opts o : call_opts opts = Some o -> (forall s, isDeniedField o s = false) -> forall r, ~ marshal_returns exH cyc_mem (Some (TPtr Node, 1000)) opts r.
Proof.
  intros Ho Hd r (N & E & NF). apply NF. rewrite <- E. unfold MarshalOpts. rewrite (check_opts_ok _ _ Ho). unfold marshal_json, append_json. cbn [fst snd].
  destruct (cached_instr exH N (TPtr Node)) as [i|] eqn:Ei; [|reflexivity].
  assert (X : cached_instr exH (N + 10) (TPtr Node) = Some (IInline (IPtr (IStruct Node true)))) by (apply (cached_mono exH 10); [vm_compute; reflexivity | lia]).
  apply (cached_mono exH N (N + 10)) in Ei; [|lia]. assert (i = IInline (IPtr (IStruct Node true))) by congruence. subst i.
  destruct N as [|N]; [reflexivity|]. cbn [exec]. destruct N as [|N]; [reflexivity|]. cbn [exec].
  change (rd_word cyc_mem (LTmp 1000 0)) with (Some (WPtr 1000)). cbn iota. rewrite cyc_exec by exact Hd. reflexivity.
Qed.
