(** Hosts for examples: a list of type declarations, each mentioning only
    earlier ones, and methods whose result does not depend on the value. *)
From Coq Require Import Wf_nat.
From Verif Require Import Base IntModel IntProof JsonSpec OptionsModel TypesModel TypesFacts TagsModel TagsProof TimeModel FloatModel FloatProof
  LeafModel MemModel FieldsSpec FieldsModel FieldsProof FieldsThm InstrModel ExecModel ValueModel ExecMono ExecProof HostFacts VencFacts MarshalThm ExampleHost.

Definition decl_env (ds : list typ) : tenv := fun n => nth n ds TBool.

(** Sizes without padding; declared types from a table. *)
Section Size.
  Variable tbl : list Z.
  Fixpoint csize (t : typ) : Z :=
    match t with
    | TInt KUint8 | TBool => 1
    | TString | TIface _ | TNumber => 16
    | TSlice _ | TTime | TRawMessage => 24
    | TArray n e => Z.of_nat n * csize e
    | TStruct fs => (fix go (l : list (fdecl * typ)) := match l with [] => 0 | (_, u) :: l' => csize u + go l' end) fs
    | TNamed n => Z.max 0 (nth n tbl 1)
    | _ => 8
    end.
  Fixpoint coff (fs : list (fdecl * typ)) (i : nat) : Z :=
    match i, fs with
    | S j, (_, u) :: fs' => csize u + coff fs' j
    | _, _ => 0
    end.
  Lemma csize_pos : forall t, 0 <= csize t.
  Proof.
    induction t using typ_ind'; cbn [csize]; try lia.
    - destruct k; lia.
    - induction H as [|[d u] fs Hu _ IH]; [lia|]. cbn [snd] in Hu. lia.
  Qed.
  Lemma coff_pos : forall fs i, 0 <= coff fs i.
  Proof. induction fs as [|[d u] fs IH]; intros [|i]; cbn [coff]; try lia. assert (A := csize_pos u). specialize (IH i). lia. Qed.
End Size.
Definition sizes (ds : list typ) : list Z := fold_left (fun tbl d => tbl ++ [csize tbl d]) ds [].

(** ** Declarations that are well formed *)
Definition ascii_id (s : bytes) : bool :=
  match s with [] => false | _ => forallb (fun c => (c =? 95) || (48 <=? c) && (c <=? 57) || (65 <=? c) && (c <=? 90) || (97 <=? c) && (c <=? 122)) s end.
Fixpoint declb (t : typ) : bool :=
  match t with
  | TPtr e | TSlice e | TArray _ e => declb e
  | TMap k e => declb k && declb e
  | TStruct fs =>
    (fix go (l : list (fdecl * typ)) : bool :=
       match l with
       | [] => true
       | (d, u) :: l' => forallb (fun c => (0 <=? c) && (c <=? 255)) (fd_tag d) && ascii_id (fd_name d) && declb u && go l'
       end) fs
  | _ => true
  end.

Definition okb (ds : list typ) : bool :=
  forallb (fun n => negb (is_named (decl_env ds n)) && declb (decl_env ds n) && forallb (fun a => (a <? n)%nat) (names (decl_env ds n)) &&
                    match decl_env ds n with TInt KUint8 => nth n (sizes ds) 1 =? 1 | _ => true end) (seq 0 (length ds)) &&
  (length (sizes ds) =? length ds)%nat.

Lemma decl_all ds (P : nat -> typ -> Prop) : okb ds = true -> (forall n, P n TBool) ->
  (forall n, negb (is_named (decl_env ds n)) = true -> declb (decl_env ds n) = true -> (forall a, In a (names (decl_env ds n)) -> (a < n)%nat) ->
     (decl_env ds n = TInt KUint8 -> nth n (sizes ds) 1 = 1) -> P n (decl_env ds n)) -> forall n, P n (decl_env ds n).
Proof.
  unfold okb. intros Hk Hb Hd n. apply andb_prop in Hk. destruct Hk as [Hk _]. rewrite forallb_forall in Hk.
  destruct (Nat.lt_ge_cases n (length ds)) as [L|L].
  - assert (X := Hk n). rewrite in_seq in X. specialize (X ltac:(lia)). apply andb_prop in X. destruct X as [X X4]. apply andb_prop in X. destruct X as [X X3]. apply andb_prop in X. destruct X as [X1 X2].
    apply Hd; auto.
    + intros a Ha. rewrite forallb_forall in X3. specialize (X3 a Ha). lia.
    + intros E. rewrite E in X4. lia.
  - unfold decl_env. rewrite nth_overflow by lia. apply Hb.
Qed.

Lemma declb_ok : forall t, declb t = true -> typ_ok ascii_letter ascii_digit t.
Proof.
  induction t using typ_ind'; cbn [declb]; intros Hd; try exact I; try (cbn [typ_ok]; auto; fail).
  - cbn [typ_ok]. apply andb_prop in Hd. destruct Hd. auto.
  - apply typ_ok_struct. induction H as [|[d u] fs Hu _ IH]; [constructor|]. apply andb_prop in Hd. destruct Hd as [Hd Hd4]. apply andb_prop in Hd. destruct Hd as [Hd Hd3].
    apply andb_prop in Hd. destruct Hd as [Hd1 Hd2]. constructor; [|exact (IH Hd4)]. cbn [fst snd]. split; [|split; [|exact (Hu Hd3)]].
    + apply Forall_forall. rewrite forallb_forall in Hd1. intros c Hc. specialize (Hd1 c Hc). unfold is_byte. lia.
    + unfold ascii_id in Hd2. destruct (fd_name d) as [|c0 s0] eqn:En; [discriminate|]. apply ident_ascii; [discriminate|].
      apply Forall_forall. rewrite forallb_forall in Hd2. intros c Hc. specialize (Hd2 c Hc). lia.
Qed.

(** ** The host *)
Definition constH (ds : list typ) (impl : typ -> mkind -> bool) (result : mkind -> typ -> option Z -> bytes + Z) : host :=
  mkHost (decl_env ds) (coff (sizes ds)) (csize (sizes ds)) impl
    (fun k td _ _ ctx dst => Some match result k td ctx with
                              | inl b => inl match k with MCtx | MApp => dst ++ b | _ => b end
                              | inr e => inr e
                              end)
    ascii_letter ascii_digit (fun _ layout => layout) (fun _ _ => FZero false) (fun _ _ _ => ([49], 1)) sort_kvs.
Definition constV (result : mkind -> typ -> option Z -> bytes + Z) (k : mkind) (td : typ) (v : val) (ctx : option Z) : bytes + Z := result k td ctx.

Lemma inside_names n t : inside n t -> In n (names t).
Proof.
  induction 1 as [|k e _ IH|fs d u Hi _ IH]; cbn [names]; [left; reflexivity | exact IH|].
  induction fs as [|[d' u'] fs IHf]; [destruct Hi|]. apply in_app_iff. destruct Hi as [[= -> ->]|Hi]; [left; exact IH | right; exact (IHf Hi)].
Qed.

Lemma guard_names n t : unguarded n t -> In n (names t).
Proof. induction 1; cbn [names]; auto; [left; reflexivity | apply in_app_iff; auto ..]. Qed.

Theorem constH_ok ds impl result : okb ds = true -> (forall k td ctx b, result k td ctx = inl b -> bytes_ok b) ->
  host_ok (constH ds impl result) (constV result).
Proof.
  intros Hk Hb. assert (Low : forall n a, In a (names (decl_env ds n)) -> (a < n)%nat).
  { intros n. apply (decl_all ds (fun n t => forall a, In a (names t) -> (a < n)%nat) Hk); [intros ? ? []|]. auto. }
  apply host_ok_intro.
  - constructor.
    + split; [reflexivity|]. split; [reflexivity|]. cbn. unfold ascii_letter, ascii_digit. intros r. lia.
    + cbn [h_env constH]. unfold wf_env. apply (decl_all ds (fun _ t => is_named t = false) Hk); [reflexivity|]. intros n A _ _ _. destruct (is_named _); [discriminate | reflexivity].
    + cbn [h_env constH h_letter h_udigit]. apply (decl_all ds (fun _ t => typ_ok ascii_letter ascii_digit t) Hk); [exact (fun _ => I)|]. intros n _ A _ _. apply declb_ok, A.
  - apply well_founded_lt_compat with (f := fun n => n). cbn [h_env constH]. intros a b Hab. apply Low. apply guard_names. exact Hab.
  - apply well_founded_lt_compat with (f := fun n => n). cbn [h_env constH]. intros a b Hab. apply Low, inside_names, Hab.
  - exists (length ds). cbn [h_env constH]. intros n a Ha. assert (A := Low n a Ha). destruct (Nat.lt_ge_cases n (length ds)); [lia|].
    unfold decl_env in Ha. rewrite nth_overflow in Ha by lia. destruct Ha.
  - cbn [h_env h_size constH]. intros t Ht. destruct t; cbn [under] in Ht; try discriminate; [injection Ht as ->; reflexivity|]. cbn [csize].
    assert (X : decl_env ds n = TInt KUint8 -> nth n (sizes ds) 1 = 1).
    { apply (decl_all ds (fun n t => t = TInt KUint8 -> nth n (sizes ds) 1 = 1) Hk); [discriminate | auto]. }
    rewrite (X Ht). reflexivity.
  - apply csize_pos.
  - apply coff_pos.
  - intros k td wl m v ctx dst _. reflexivity.
  - exact (fun k td v ctx b => Hb k td ctx b).
Qed.
