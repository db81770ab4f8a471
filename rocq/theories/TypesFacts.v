(** Decidable equality on types. *)
From Verif Require Import Base IntModel TypesModel.

Lemma typ_ind' (P : typ -> Prop) :
  P TBool -> (forall k, P (TInt k)) -> (forall b, P (TFloat b)) -> P TString ->
  P TComplex -> P TChan -> P TFunc -> P TUnsafePointer -> (forall o, P (TIface o)) ->
  (forall t, P t -> P (TPtr t)) -> (forall t, P t -> P (TSlice t)) -> (forall n t, P t -> P (TArray n t)) ->
  (forall k e, P k -> P e -> P (TMap k e)) ->
  (forall fs, Forall (fun f => P (snd f)) fs -> P (TStruct fs)) ->
  (forall n, P (TNamed n)) -> P TTime -> P TDuration -> P TNumber -> P TRawMessage -> P TSyncMap ->
  forall t, P t.
Proof.
  intros H1 H2 H3 H4 H5 H6 H7 H8 H9 H10 H11 H12 H13 H14 H15 H16 H17 H18 H19 H20.
  fix IH 1. intros [ | k | b | | | | | | o | t | t | n t | k e | fs | n | | | | | ].
  - exact H1.
  - apply H2.
  - apply H3.
  - exact H4.
  - exact H5.
  - exact H6.
  - exact H7.
  - exact H8.
  - apply H9.
  - apply H10, IH.
  - apply H11, IH.
  - apply H12, IH.
  - apply H13; apply IH.
  - apply H14. induction fs as [|[d t] fs IHfs]; constructor; [apply IH | exact IHfs].
  - apply H15.
  - exact H16.
  - exact H17.
  - exact H18.
  - exact H19.
  - exact H20.
Qed.

Definition ikind_eqb (a b : ikind) : bool :=
  match a, b with
  | KInt, KInt | KInt8, KInt8 | KInt16, KInt16 | KInt32, KInt32 | KInt64, KInt64 | KUint, KUint | KUint8, KUint8
  | KUint16, KUint16 | KUint32, KUint32 | KUint64, KUint64 | KUintptr, KUintptr => true
  | _, _ => false
  end.

Lemma ikind_eqb_eq a b : ikind_eqb a b = true <-> a = b.
Proof. destruct a, b; cbn; split; congruence. Qed.

Definition fdecl_eqb (a b : fdecl) : bool :=
  bytes_eqb (fd_name a) (fd_name b) && Bool.eqb (fd_unexported a) (fd_unexported b) &&
  Bool.eqb (fd_anon a) (fd_anon b) && bytes_eqb (fd_tag a) (fd_tag b).

Lemma fdecl_eqb_eq a b : fdecl_eqb a b = true <-> a = b.
Proof.
  destruct a as [a1 a2 a3 a4], b as [b1 b2 b3 b4]. unfold fdecl_eqb. cbn.
  rewrite !andb_true_iff, !bytes_eqb_eq, !Bool.eqb_true_iff. split; [intros [[[-> ->] ->] ->]; reflexivity|].
  intros H; injection H as -> -> -> ->. auto.
Qed.

(** Identity of types (Go spec, "Type identity"): field declarations, tags
    included, and element types agree; declared types are identified by their
    declaration. *)
Fixpoint typ_eqb (a b : typ) {struct a} : bool :=
  match a, b with
  | TBool, TBool | TString, TString | TComplex, TComplex | TChan, TChan | TFunc, TFunc
  | TUnsafePointer, TUnsafePointer | TTime, TTime | TDuration, TDuration | TNumber, TNumber
  | TRawMessage, TRawMessage | TSyncMap, TSyncMap => true
  | TInt k, TInt k' => ikind_eqb k k'
  | TFloat x, TFloat y => Bool.eqb x y
  | TIface None, TIface None => true
  | TIface (Some x), TIface (Some y) => (x =? y)%nat
  | TPtr x, TPtr y | TSlice x, TSlice y => typ_eqb x y
  | TArray n x, TArray n' y => (n =? n')%nat && typ_eqb x y
  | TMap k e, TMap k' e' => typ_eqb k k' && typ_eqb e e'
  | TStruct fs, TStruct gs =>
    (fix go (fs gs : list (fdecl * typ)) {struct fs} : bool :=
       match fs, gs with
       | [], [] => true
       | (d, t) :: fs', (d', t') :: gs' => fdecl_eqb d d' && typ_eqb t t' && go fs' gs'
       | _, _ => false
       end) fs gs
  | TNamed x, TNamed y => (x =? y)%nat
  | _, _ => false
  end.

Lemma typ_eqb_eq a : forall b, typ_eqb a b = true <-> a = b.
Proof.
  induction a as [ | k | x | | | | | | o | t IH | t IH | n t IH | k e IHk IHe | fs IH | n | | | | | ] using typ_ind';
    destruct b as [ | k' | y | | | | | | o' | t' | t' | n' t' | k' e' | gs | n' | | | | | ]; cbn [typ_eqb]; try (split; congruence); try (destruct o; split; congruence).
  - rewrite ikind_eqb_eq. split; congruence.
  - rewrite Bool.eqb_true_iff. split; congruence.
  - destruct o as [x|], o' as [y|]; try (split; congruence). rewrite Nat.eqb_eq. split; congruence.
  - rewrite IH. split; congruence.
  - rewrite IH. split; congruence.
  - rewrite andb_true_iff, Nat.eqb_eq, IH. split; [intros [-> ->]; reflexivity | intros H; injection H; auto].
  - rewrite andb_true_iff, IHk, IHe. split; [intros [-> ->]; reflexivity | intros H; injection H; auto].
  - revert gs. induction IH as [|[d t] fs Ht _ IHfs]; intros [|[d' t'] gs]; try (split; congruence).
    cbn in Ht. rewrite !andb_true_iff, fdecl_eqb_eq, Ht. specialize (IHfs gs). rewrite IHfs.
    split; [intros [[-> ->] H]; injection H as ->; reflexivity | intros H; injection H as -> -> ->; auto].
  - rewrite Nat.eqb_eq. split; congruence.
Qed.

Lemma typ_eqb_refl a : typ_eqb a a = true.
Proof. apply typ_eqb_eq. reflexivity. Qed.

Lemma typ_eqb_neq a b : typ_eqb a b = false <-> a <> b.
Proof. rewrite <- typ_eqb_eq. destruct (typ_eqb a b); split; congruence. Qed.

Lemma typ_eq_dec (a b : typ) : {a = b} + {a <> b}.
Proof. destruct (typ_eqb a b) eqn:E; [left; apply typ_eqb_eq, E | right; apply typ_eqb_neq, E]. Qed.
