(** Bytes, slices and general list facts.

    A Go byte is a [Z] in 0..255, a Go []byte (content only) or string is a
    list of them.  [len] and indices are [nat], as a Go int never negative
    here.  Aliasing and capacity are modelled separately (SliceModel.v,
    PoolModel.v, FieldsModel.v) where a property depends on them. *)
From Coq Require Export String Ascii.
From Coq Require Export List ZArith Lia Bool Arith.
From Coq Require Export ZifyBool ZifyNat.
Export ListNotations.
Global Open Scope Z_scope.
Global Open Scope list_scope.
Ltac Zify.zify_post_hook ::= Z.div_mod_to_equations.

Global Arguments Z.add : simpl never.
Global Arguments Z.sub : simpl never.
Global Arguments Z.mul : simpl never.
Global Arguments Z.div : simpl never.
Global Arguments Z.modulo : simpl never.
Global Arguments Z.pow : simpl never.

Definition bytes := list Z.

(** A value of Go type byte. *)
Definition is_byte (b : Z) : Prop := 0 <= b < 256.
Definition bytes_ok (s : bytes) : Prop := Forall is_byte s.

Definition is_byteb (b : Z) : bool := (0 <=? b) && (b <? 256).

(** String literals: [lit "true"] is the list of its ASCII codes. *)
Definition lit (s : String.string) : bytes :=
  map (fun a => Z.of_N (Ascii.N_of_ascii a)) (String.list_ascii_of_string s).
Arguments lit _%string.

(** Go's s[a:b] (the caller guarantees a <= b <= len s). *)
Definition sub (s : bytes) (a b : nat) : bytes := firstn (b - a) (skipn a s).

(** Go's s[i] (the caller guarantees i < len s). *)
Definition at_ (s : bytes) (i : nat) : Z := nth i s 0.

(** Equality of byte strings. *)
Fixpoint bytes_eqb (a b : bytes) : bool :=
  match a, b with
  | [], [] => true
  | x :: a', y :: b' => (x =? y) && bytes_eqb a' b'
  | _, _ => false
  end.

Lemma bytes_eqb_eq a b : bytes_eqb a b = true <-> a = b.
Proof.
  revert b; induction a as [|x a IH]; destruct b as [|y b]; simpl;
    try (split; congruence).
  rewrite andb_true_iff, Z.eqb_eq, IH. split; [intros []; congruence | intros H; inversion H; auto].
Qed.

Lemma bytes_eqb_refl a : bytes_eqb a a = true.
Proof. apply bytes_eqb_eq; reflexivity. Qed.

Lemma bytes_eqb_neq a b : bytes_eqb a b = false <-> a <> b.
Proof. rewrite <- bytes_eqb_eq. destruct (bytes_eqb a b); split; congruence. Qed.

(** Go's bytes.Compare(a,b) < 0 and string < : lexicographic order. *)
Fixpoint bytes_ltb (a b : bytes) : bool :=
  match a, b with
  | [], [] => false
  | [], _ :: _ => true
  | _ :: _, [] => false
  | x :: a', y :: b' => (x <? y) || ((x =? y) && bytes_ltb a' b')
  end.

Lemma bytes_ltb_irrefl a : bytes_ltb a a = false.
Proof. induction a as [|x a IH]; simpl; [reflexivity|]. rewrite IH; lia. Qed.

Lemma bytes_ltb_trans a b c : bytes_ltb a b = true -> bytes_ltb b c = true -> bytes_ltb a c = true.
Proof.
  revert b c; induction a as [|x a IH]; destruct b as [|y b], c as [|z c]; simpl; try congruence; auto.
  intros H1 H2.
  apply orb_true_iff in H1; apply orb_true_iff in H2; apply orb_true_iff.
  destruct H1 as [H1|H1], H2 as [H2|H2]; rewrite ?andb_true_iff in *; try (left; lia).
  right; split; [lia|]. destruct H1, H2; eapply IH; eauto.
Qed.

Lemma bytes_ltb_total a b : bytes_ltb a b = false -> bytes_ltb b a = false -> a = b.
Proof.
  revert b; induction a as [|x a IH]; destruct b as [|y b]; simpl; try congruence; auto.
  rewrite !orb_false_iff, !andb_false_iff. intros [H1 H2] [H3 H4].
  assert (x = y) by lia; subst. f_equal. apply IH; destruct H2, H4; try lia; auto.
Qed.

Lemma skipn_skipn {A} x y (l : list A) : skipn x (skipn y l) = skipn (x + y) l.
Proof.
  revert y l; induction y as [|y IH]; intros l.
  - rewrite Nat.add_0_r. reflexivity.
  - rewrite Nat.add_succ_r. destruct l; [rewrite !skipn_nil; reflexivity|]. simpl. apply IH.
Qed.

Lemma sub_nil s a b : (b <= a)%nat -> sub s a b = [].
Proof. unfold sub; intros H. replace (b - a)%nat with O by lia. reflexivity. Qed.

Lemma sub_full s a b : (length s <= b)%nat -> sub s a b = skipn a s.
Proof. unfold sub; intros H. apply firstn_all2. rewrite skipn_length. lia. Qed.

Lemma skipn_sub s a b : (a <= b)%nat -> (b <= length s)%nat -> skipn a s = sub s a b ++ skipn b s.
Proof.
  intros Hab Hb. unfold sub. rewrite <- (firstn_skipn (b - a) (skipn a s)) at 1. f_equal.
  rewrite skipn_skipn. f_equal. lia.
Qed.

Lemma sub_split s a b c : (a <= b <= c)%nat -> (c <= length s)%nat -> sub s a c = sub s a b ++ sub s b c.
Proof.
  intros H Hc.
  assert (E : sub s a c ++ skipn c s = (sub s a b ++ sub s b c) ++ skipn c s).
  { rewrite <- app_assoc, <- !skipn_sub by lia. reflexivity. }
  now apply app_inv_tail in E.
Qed.

Lemma skipn_cons_at s i : (i < length s)%nat -> skipn i s = at_ s i :: skipn (S i) s.
Proof.
  revert i; induction s as [|x s IH]; simpl; intros i H; [lia|].
  destruct i as [|i]; [reflexivity|]. exact (IH i ltac:(lia)).
Qed.

Lemma sub_snoc s a i : (a <= i)%nat -> (i < length s)%nat -> sub s a (S i) = sub s a i ++ [at_ s i].
Proof.
  intros Ha Hi. rewrite (sub_split s a i (S i)) by lia. f_equal.
  unfold sub. replace (S i - i)%nat with 1%nat by lia. rewrite skipn_cons_at by lia. reflexivity.
Qed.

Lemma sub_extend s a i n : (a <= i)%nat -> (i + n <= length s)%nat ->
  sub s a (i + n) = sub s a i ++ firstn n (skipn i s).
Proof.
  intros Ha Hi. rewrite (sub_split s a i (i+n)) by lia. f_equal. unfold sub. f_equal. lia.
Qed.

Lemma skipn_length_nat {A} n (l : list A) : length (skipn n l) = (length l - n)%nat.
Proof. apply skipn_length. Qed.

Lemma skipn_nil_iff {A} n (l : list A) : skipn n l = [] <-> (length l <= n)%nat.
Proof.
  split; intros H.
  - assert (E := skipn_length n l). rewrite H in E. simpl in E. lia.
  - apply skipn_all2; lia.
Qed.

Lemma Forall_app_iff {A} (P : A -> Prop) l1 l2 : Forall P (l1 ++ l2) <-> Forall P l1 /\ Forall P l2.
Proof. apply Forall_app. Qed.

Lemma Forall_firstn {A} (P : A -> Prop) n l : Forall P l -> Forall P (firstn n l).
Proof. intros H. rewrite <- (firstn_skipn n l) in H. apply Forall_app in H. tauto. Qed.

Lemma Forall_skipn {A} (P : A -> Prop) n l : Forall P l -> Forall P (skipn n l).
Proof. intros H. rewrite <- (firstn_skipn n l) in H. apply Forall_app in H. tauto. Qed.

Lemma skipn_app_exact {A} (l1 l2 : list A) : skipn (length l1) (l1 ++ l2) = l2.
Proof. rewrite skipn_app, skipn_all, Nat.sub_diag. reflexivity. Qed.

Lemma firstn_app_exact {A} (l1 l2 : list A) : firstn (length l1) (l1 ++ l2) = l1.
Proof. rewrite firstn_app, firstn_all, Nat.sub_diag. simpl. apply app_nil_r. Qed.

(** Strong induction on the length of a list. *)
Lemma list_len_ind {A} (P : list A -> Prop) :
  (forall l, (forall l', (length l' < length l)%nat -> P l') -> P l) -> forall l, P l.
Proof.
  intros H l. remember (length l) as n eqn:E. revert l E.
  induction n as [n IH] using lt_wf_ind. intros l ->. apply H. intros l' Hl. eapply IH; eauto.
Qed.

(** Prefix and suffix tests. *)
Fixpoint is_prefixb (p s : bytes) : bool :=
  match p, s with
  | [], _ => true
  | x :: p', y :: s' => (x =? y) && is_prefixb p' s'
  | _ :: _, [] => false
  end.

Definition prefix (p s : bytes) : Prop := exists r, s = p ++ r.

(** [infix p s]: p occurs as a contiguous block of s. *)
Definition infix (p s : bytes) : Prop := exists l r, s = l ++ p ++ r.

Lemma is_prefixb_spec p s : is_prefixb p s = true <-> prefix p s.
Proof.
  unfold prefix. revert s; induction p as [|x p IH]; intros s; simpl.
  - split; [intros _; exists s; reflexivity | reflexivity].
  - destruct s as [|y s]; [split; [congruence | intros [r Hr]; discriminate]|].
    rewrite andb_true_iff, Z.eqb_eq, IH. split.
    + intros [-> [r ->]]. exists r; reflexivity.
    + intros [r Hr]. inversion Hr; subst. split; [reflexivity | exists r; reflexivity].
Qed.

(** All the byte values, for finite case analysis on one byte. *)
Definition all_bytes : list Z := map Z.of_nat (seq 0 256).

Lemma all_bytes_spec b : is_byte b -> In b all_bytes.
Proof.
  intros H. unfold all_bytes. apply in_map_iff. exists (Z.to_nat b).
  unfold is_byte in H. split; [lia|]. apply in_seq. lia.
Qed.

Lemma byte_forallb (f : Z -> bool) : forallb f all_bytes = true -> forall b, is_byte b -> f b = true.
Proof. intros H b Hb. rewrite forallb_forall in H. apply H, all_bytes_spec, Hb. Qed.
