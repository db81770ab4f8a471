(** When the recursions on types end: building instructions, isInlined and
    structFields.  Sufficient conditions on the declared types of a program,
    all of them about the type declarations only. *)
From Coq Require Import Wf_nat.
From Verif Require Import Base IntModel JsonSpec OptionsModel TypesModel TypesFacts TagsModel TagsProof MemModel
  FieldsSpec FieldsModel FieldsProof FieldsThm InstrModel ExecModel ValueModel ExecMono ExecProof.

(** ** Type declarations *)
(** The declared type n occurs in t outside structs, so that building the
    encoder of t needs the encoder of n first. *)
Inductive unguarded (n : nat) : typ -> Prop :=
| ug_here : unguarded n (TNamed n)
| ug_ptr e : unguarded n e -> unguarded n (TPtr e)
| ug_slice e : unguarded n e -> unguarded n (TSlice e)
| ug_array k e : unguarded n e -> unguarded n (TArray k e)
| ug_key k e : unguarded n k -> unguarded n (TMap k e)
| ug_elem k e : unguarded n e -> unguarded n (TMap k e).

(** Every cycle of type declarations passes through a struct. *)
Definition guarded (E : tenv) : Prop := well_founded (fun a b => unguarded a (E b)).

(** The declared type n occurs in t by value: as a struct field or an array
    element.  Go rejects declarations where this has cycles. *)
Inductive inside (n : nat) : typ -> Prop :=
| in_here : inside n (TNamed n)
| in_array k e : inside n e -> inside n (TArray k e)
| in_struct fs d u : In (d, u) fs -> inside n u -> inside n (TStruct fs).
Definition finite_size (E : tenv) : Prop := well_founded (fun a b => inside a (E b)).

(** The declarations mention finitely many declared types. *)
Fixpoint names (t : typ) : list nat :=
  match t with
  | TPtr e | TSlice e | TArray _ e => names e
  | TMap k e => names k ++ names e
  | TStruct fs => (fix go (l : list (fdecl * typ)) := match l with [] => [] | (_, u) :: l' => names u ++ go l' end) fs
  | TNamed n => [n]
  | _ => []
  end.
Definition finite_refs (E : tenv) : Prop := exists N, forall n a, In a (names (E n)) -> (a < N)%nat.

Section Rec.
  Variable H : host.
  Notation E := (h_env H).

  (** ** newInstruction *)
  Definition builds (t : typ) : Prop := forall ca q, exists k i, compile H k t ca q = Some i.

  Lemma builds_step t :
    match under E t with
    | TMap k e => builds k /\ builds e
    | TSlice e | TArray _ e | TPtr e => builds e
    | _ => True
    end -> builds t.
  Proof.
    intros Hc ca q.
    assert (Leaf : forall i, (forall f, compile H (S f) t ca q = Some i) -> exists k i, compile H k t ca q = Some i).
    { intros i Hi. exists 1%nat, i. apply Hi. }
    destruct (go_type_instr t) as [i|] eqn:Eg. { apply (Leaf i). intros f. cbn [compile]. rewrite Eg. reflexivity. }
    destruct (marshaler_instr H t ca) as [i|] eqn:Em. { apply (Leaf i). intros f. cbn [compile]. rewrite Eg, Em. reflexivity. }
    destruct (basic_instr H t q) as [i|] eqn:Eb. { apply (Leaf i). intros f. cbn [compile]. rewrite Eg, Em, Eb. reflexivity. }
    assert (Go : forall f, compile H (S f) t ca q =
      match under E t with
      | TIface _ => Some IIface
      | TStruct _ => Some (IStruct t ca)
      | TMap kt et =>
        if negb (key_ok H kt) then Some (IUnsupp t)
        else match (if isString E kt then Some IString else compile H f kt false false) with
             | None => None
             | Some ki => match compile H f et false false with None => None | Some vi => Some (IMap (key_wrap H kt ki) vi) end
             end
      | TSlice e => if byte_elem H e then Some IByteSlice else match compile H f e true false with Some i => Some (ISlice i (h_size H e)) | None => None end
      | TArray n e => match compile H f e ca false with Some i => Some (IArray i (h_size H e) n (byte_elem H e)) | None => None end
      | TPtr e => match compile H f e true q with Some i => Some (IPtr i) | None => None end
      | _ => Some (IUnsupp t)
      end).
    { intros f. cbn [compile]. rewrite Eg, Em, Eb. reflexivity. }
    destruct (under E t) eqn:Eu; try (eexists 1%nat, _; rewrite Go; reflexivity).
    - destruct (Hc true q) as (k & i & Hi). exists (S k). rewrite Go, Hi. eauto.
    - destruct (byte_elem H t0) eqn:Ebe; [exists 1%nat; rewrite Go; eauto|].
      destruct (Hc true false) as (k & i & Hi). exists (S k). rewrite Go, Hi. eauto.
    - destruct (Hc ca false) as (k & i & Hi). exists (S k). rewrite Go, Hi. eauto.
    - destruct Hc as [H1 H2]. destruct (negb (key_ok H t0_1)) eqn:Ek; [exists 1%nat; rewrite Go; eauto|].
      destruct (H1 false false) as (k1 & i1 & Hi1). destruct (H2 false false) as (k2 & i2 & Hi2). exists (S (Nat.max k1 k2)). rewrite Go.
      rewrite (compile_mono H k2 _ _ _ _ _ Hi2) by lia. rewrite (compile_mono H k1 _ _ _ _ _ Hi1) by lia.
      destruct (isString E t0_1); eauto.
  Qed.

  (** From the declared types of t to t. *)
  Lemma builds_type t : (forall n, unguarded n t -> builds (TNamed n)) -> builds t.
  Proof.
    induction t using typ_ind'; intros Hn; try (apply builds_step; exact I).
    - apply builds_step. cbn. apply IHt. intros n Hu. apply Hn. constructor. exact Hu.
    - apply builds_step. cbn. apply IHt. intros n Hu. apply Hn. constructor. exact Hu.
    - apply builds_step. cbn. apply IHt. intros m Hu. apply Hn. constructor. exact Hu.
    - apply builds_step. cbn. split; [apply IHt1 | apply IHt2]; intros m Hu; apply Hn; [apply ug_key | apply ug_elem]; exact Hu.
    - apply Hn. constructor.
    - apply builds_step. cbn. apply builds_step. exact I.
  Qed.

  Theorem compile_total : wf_env E -> guarded E -> forall t, builds t.
  Proof.
    intros WF G t. apply builds_type. intros n _. induction n as [n IH] using (well_founded_induction G).
    apply builds_step. cbn [under]. assert (W := WF n).
    assert (Sub : forall e, (forall a, unguarded a e -> unguarded a (E n)) -> builds e).
    { intros e He. apply builds_type. intros a Ha. apply IH. apply He. exact Ha. }
    destruct (E n) eqn:En; try exact I; try discriminate.
    - apply Sub. intros a. apply ug_ptr.
    - apply Sub. intros a. apply ug_slice.
    - apply Sub. intros a. apply ug_array.
    - split; apply Sub; intros a; [apply ug_key | apply ug_elem].
  Qed.

  (** ** isInlined, and the layout of interface values *)
  Lemma inlined_step t :
    (forall d u, under E t = TStruct [(d, u)] -> exists k b, isInlined H k u = Some b) -> exists k b, isInlined H k t = Some b.
  Proof.
    intros Hc. destruct (under E t) as [ | | | | | | | | | | | | |fs| | | | | | ] eqn:Eu; try (exists 1%nat; cbn [isInlined]; rewrite Eu; eauto; fail).
    destruct fs as [|[d u] [|]]; try (exists 1%nat; cbn [isInlined]; rewrite Eu; eauto; fail).
    destruct (Hc d u eq_refl) as (k & b & Hb). exists (S k), b. cbn [isInlined]. rewrite Eu. exact Hb.
  Qed.

  Lemma direct_step t :
    (forall d u, under E t = TStruct [(d, u)] -> exists k b, is_direct H k u = Some b) ->
    (forall u, under E t = TArray 1 u -> exists k b, is_direct H k u = Some b) -> exists k b, is_direct H k t = Some b.
  Proof.
    intros Hc Ha. destruct (under E t) as [ | | | | | | | | | | |n e| |fs| | | | | | ] eqn:Eu; try (exists 1%nat; cbn [is_direct]; rewrite Eu; eauto; fail).
    - destruct n as [|[|n]]; try (exists 1%nat; cbn [is_direct]; rewrite Eu; eauto; fail).
      destruct (Ha e eq_refl) as (k & b & Hb). exists (S k), b. cbn [is_direct]. rewrite Eu. exact Hb.
    - destruct fs as [|[d u] [|]]; try (exists 1%nat; cbn [is_direct]; rewrite Eu; eauto; fail).
      destruct (Hc d u eq_refl) as (k & b & Hb). exists (S k), b. cbn [is_direct]. rewrite Eu. exact Hb.
  Qed.

  (** A recursion that follows the only field of a struct, or the element of an
      array, ends. *)
  Lemma by_value_ind (P : typ -> Prop) :
    wf_env E -> finite_size E ->
    (forall t, (forall fs d u, under E t = TStruct fs -> In (d, u) fs -> P u) -> (forall n u, under E t = TArray n u -> P u) -> P t) ->
    forall t, P t.
  Proof.
    intros WF G Step.
    assert (Ty : forall t, (forall n, inside n t -> P (TNamed n)) -> P t).
    { induction t using typ_ind'; intros Hn; try (apply Step; cbn; intros; discriminate).
      - apply Step; cbn; [intros; discriminate|]. intros m u [= <- <-]. apply IHt. intros a Ha. apply Hn. constructor. exact Ha.
      - apply Step; cbn; [|intros; discriminate]. intros fs' d u [= <-] Hi. rewrite Forall_forall in H0. specialize (H0 _ Hi). cbn in H0. apply H0.
        intros a Ha. apply Hn. eapply in_struct; eauto.
      - apply Hn. constructor.
      - apply Step; cbn; [|intros; discriminate]. intros fs d u [= <-] Hi.
        repeat (destruct Hi as [[= <- <-]|Hi]; [apply Step; cbn; intros; discriminate|]). destruct Hi.
      - assert (PT : P TTime).
        { apply Step; cbn; [|intros; discriminate]. intros fs d u [= <-] Hi.
          repeat (destruct Hi as [[= <- <-]|Hi]; [apply Step; cbn; intros; discriminate|]). destruct Hi. }
        apply Step; cbn; [|intros; discriminate]. intros fs d u [= <-] Hi.
        repeat (destruct Hi as [[= <- <-]|Hi]; [first [exact PT | apply Step; cbn; intros; discriminate]|]). destruct Hi. }
    intros t. apply Ty. intros n _. induction n as [n IH] using (well_founded_induction G).
    apply Step; cbn [under].
    - intros fs d u En Hi. apply Ty. intros a Ha. apply IH. rewrite En. eapply in_struct; eauto.
    - intros k u En. apply Ty. intros a Ha. apply IH. rewrite En. apply in_array. exact Ha.
  Qed.

  Theorem isInlined_total : wf_env E -> finite_size E -> forall t, exists k b, isInlined H k t = Some b.
  Proof.
    intros WF G. apply by_value_ind; auto. intros t Hs _. apply inlined_step. intros d u Hu. eapply Hs; eauto. left. reflexivity.
  Qed.
  Theorem is_direct_total : wf_env E -> finite_size E -> forall t, exists k b, is_direct H k t = Some b.
  Proof.
    intros WF G. apply by_value_ind; auto. intros t Hs Ha. apply direct_step; [|exact (Ha _)]. intros d u Hu. eapply Hs; eauto. left. reflexivity.
  Qed.
End Rec.

(** ** structFields *)
Fixpoint subterms (t : typ) : list typ :=
  t :: match t with
       | TPtr e | TSlice e | TArray _ e => subterms e
       | TMap k e => subterms k ++ subterms e
       | TStruct fs => (fix go (l : list (fdecl * typ)) := match l with [] => [] | (_, u) :: l' => subterms u ++ go l' end) fs
       | _ => []
       end.

Lemma subterms_self t : In t (subterms t).
Proof. destruct t; left; reflexivity. Qed.

Lemma names_field fs d u a : In (d, u) fs -> In a (names u) -> In a (names (TStruct fs)).
Proof.
  cbn [names]. induction fs as [|[d' u'] fs IH]; intros Hi Ha; [destruct Hi|]. apply in_app_iff.
  destruct Hi as [[= -> ->]|Hi]; [left; exact Ha | right; apply IH; auto].
Qed.

Lemma subterms_field fs d u x : In (d, u) fs -> In x (subterms u) -> In x (subterms (TStruct fs)).
Proof.
  intros Hi Hx. cbn [subterms]. right. induction fs as [|[d' u'] fs IH]; [destruct Hi|]. apply in_app_iff.
  destruct Hi as [[= -> ->]|Hi]; [left; exact Hx | right; apply IH; auto].
Qed.

Lemma subterms_trans a : forall b c, In b (subterms a) -> In c (subterms b) -> In c (subterms a).
Proof.
  induction a using typ_ind'; intros b' c Hb Hc; cbn [subterms] in Hb;
    (destruct Hb as [<-|Hb]; [exact Hc|]); try (destruct Hb; fail).
  - right. eapply IHa; eauto.
  - right. eapply IHa; eauto.
  - right. eapply IHa; eauto.
  - right. apply in_app_iff. apply in_app_iff in Hb. destruct Hb; [left; eapply IHa1; eauto | right; eapply IHa2; eauto].
  - rename H into HF.
    assert (G : exists d u, In (d, u) fs /\ In b' (subterms u)).
    { clear HF Hc. induction fs as [|[d u] fs IH]; [destruct Hb|]. apply in_app_iff in Hb. destruct Hb as [Hb|Hb].
      - exists d, u. split; [left; reflexivity | exact Hb].
      - destruct (IH Hb) as (d' & u' & A & B). exists d', u'. split; [right; exact A | exact B]. }
    destruct G as (d & u & G1 & G2). rewrite Forall_forall in HF. eapply subterms_field; eauto. eapply (HF _ G1); eauto.
Qed.

Lemma subterms_names a : forall b n, In b (subterms a) -> In n (names b) -> In n (names a).
Proof.
  induction a using typ_ind'; intros b' n' Hb Hc; cbn [subterms] in Hb;
    (destruct Hb as [<-|Hb]; [exact Hc|]); try (destruct Hb; fail).
  - cbn [names]. eapply IHa; eauto.
  - cbn [names]. eapply IHa; eauto.
  - cbn [names]. eapply IHa; eauto.
  - cbn [names]. apply in_app_iff. apply in_app_iff in Hb. destruct Hb; [left; eapply IHa1; eauto | right; eapply IHa2; eauto].
  - rename H into HF.
    assert (G : exists d u, In (d, u) fs /\ In b' (subterms u)).
    { clear HF Hc. induction fs as [|[d u] fs IH]; [destruct Hb|]. apply in_app_iff in Hb. destruct Hb as [Hb|Hb].
      - exists d, u. split; [left; reflexivity | exact Hb].
      - destruct (IH Hb) as (d' & u' & A & B). exists d', u'. split; [right; exact A | exact B]. }
    destruct G as (d & u & G1 & G2). rewrite Forall_forall in HF. eapply names_field; eauto. eapply (HF _ G1); eauto.
Qed.

Section Fields.
  Variable H : host.
  Hypothesis WF : wf_host H.
  Notation E := (h_env H).

  Definition reach_types (N : nat) (t : typ) : list typ :=
    subterms t ++ flat_map (fun n => subterms (E n)) (names t ++ seq 0 N).

  Lemma reach_names N t : (forall n a, In a (names (E n)) -> (a < N)%nat) ->
    forall w a, In w (reach_types N t) -> In a (names w) -> In a (names t ++ seq 0 N).
  Proof.
    intros HN w a Hw Ha. unfold reach_types in Hw. apply in_app_iff in Hw. apply in_app_iff. destruct Hw as [Hw|Hw].
    - left. eapply subterms_names; eauto.
    - right. apply in_flat_map in Hw. destruct Hw as (n & _ & Hw). apply in_seq. assert (X := HN n a (subterms_names _ _ _ Hw Ha)). lia.
  Qed.

  Theorem structFields_ends : finite_refs E -> forall t, typ_ok (h_letter H) (h_udigit H) t -> exists k fs, structFields H k t = Some fs.
  Proof.
    intros [N HN] t Ht. destruct (structFields_total H WF t Ht (reach_types N t)) as [fs Hfs]; [|exists (S (length (reach_types N t))), fs; exact Hfs].
    intros p sq u Hp. induction Hp as [|p sq w i isptr fs u Hp IH He Hs].
    - unfold reach_types. apply in_app_iff. left. apply subterms_self.
    - destruct He as (fs' & d & v & n & opts & A1 & A2 & A3 & A4 & A5 & A6 & A7 & A8 & A9).
      unfold struct_of in *. rewrite Hs in A1. injection A1 as <-. apply nth_error_In in A2.
      assert (Hu : In u (subterms v)). { destruct A7 as [->|[_ ->]]; [cbn [subterms]; right|]; apply subterms_self. }
      assert (Hv : In v (reach_types N t)).
      { destruct w; cbn [under] in Hs; try discriminate.
        - injection Hs as ->. unfold reach_types in *. apply in_app_iff in IH. apply in_app_iff. destruct IH as [IH|IH].
          + left. eapply subterms_trans; eauto. eapply subterms_field; eauto. apply subterms_self.
          + right. apply in_flat_map in IH. destruct IH as (m & M1 & M2). apply in_flat_map. exists m. split; auto.
            eapply subterms_trans; eauto. eapply subterms_field; eauto. apply subterms_self.
        - unfold reach_types. apply in_app_iff. right. apply in_flat_map. exists n0. split.
          + apply (reach_names N t HN (TNamed n0)); [exact IH | left; reflexivity].
          + rewrite Hs. eapply subterms_field; eauto. apply subterms_self.
        - injection Hs as <-. repeat (destruct A2 as [[= <- <-]|A2]; [discriminate|]). destruct A2.
        - injection Hs as <-. repeat (destruct A2 as [[= <- <-]|A2]; [discriminate|]). destruct A2. }
      unfold reach_types in *. apply in_app_iff in Hv. apply in_app_iff. destruct Hv as [Hv|Hv].
      + left. eapply subterms_trans; eauto.
      + right. apply in_flat_map in Hv. destruct Hv as (m & M1 & M2). apply in_flat_map. exists m. split; auto. eapply subterms_trans; eauto.
  Qed.
End Fields.

(** ** A host is well behaved when its type declarations are, its layout is
    sane and methods are functions of the value *)
Theorem host_ok_intro H vcall : wf_host H -> guarded (h_env H) -> finite_size (h_env H) -> finite_refs (h_env H) ->
  (forall t, under (h_env H) t = TInt KUint8 -> h_size H t = 1) -> (forall t, 0 <= h_size H t) -> (forall fs i, 0 <= h_off H fs i) ->
  (forall k td wl m v ctx dst, word_repr H m td wl v ->
      h_call H k td wl m ctx dst =
        Some match vcall k td v ctx with
             | inl b => inl match k with MCtx | MApp => dst ++ b | _ => b end
             | inr e => inr e
             end) ->
  (forall k td v ctx b, vcall k td v ctx = inl b -> bytes_ok b) ->
  host_ok H vcall.
Proof.
  intros W G1 G2 G3 A1 A2 A3 A4 A5. constructor; auto.
  - intros t ca q _. apply (compile_total H (wf_names H W) G1 t).
  - intros t _. apply (isInlined_total H (wf_names H W) G2).
  - intros t _. apply (is_direct_total H (wf_names H W) G2).
  - intros t Ht. apply structFields_ends; auto.
Qed.
