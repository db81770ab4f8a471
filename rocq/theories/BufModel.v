(** Fixed-size scratch arrays ([32]byte, [37]byte).  A write out of range is a
    Go run-time panic: [None]. *)
From Verif Require Import Base.

Fixpoint set_nth (l : bytes) (i : nat) (v : Z) : bytes :=
  match l, i with
  | [], _ => []
  | _ :: l', O => v :: l'
  | x :: l', S i' => x :: set_nth l' i' v
  end.

(** buf[i] = v *)
Definition bset (buf : bytes) (i : nat) (v : Z) : option bytes :=
  if (i <? length buf)%nat then Some (set_nth buf i v) else None.

(** Index decrement "l--" followed by a write at l: [None] when l = 0 (index
    -1 out of range). *)
Definition bpush (buf : bytes) (l : nat) (v : Z) : option (bytes * nat) :=
  match l with
  | O => None
  | S l' => match bset buf l' v with Some b => Some (b, l') | None => None end
  end.

Notation "'do' x <- e ; f" := (match e with Some x => f | None => None end)
  (at level 200, x pattern, e at level 100, f at level 200).

Lemma set_nth_length l i v : length (set_nth l i v) = length l.
Proof. revert i; induction l as [|x l IH]; intros [|i]; cbn; auto. Qed.

Lemma set_nth_skipn l i v : (i < length l)%nat -> skipn i (set_nth l i v) = v :: skipn (S i) l.
Proof. revert i; induction l as [|x l IH]; intros [|i] H; cbn in *; try lia; auto. apply IH. lia. Qed.

Lemma set_nth_app l i v : (i < length l)%nat -> set_nth l i v = firstn i l ++ v :: skipn (S i) l.
Proof.
  revert i; induction l as [|x l IH]; intros [|i] H; cbn in *; try lia; auto. f_equal. apply IH. lia.
Qed.

Lemma bset_ok buf i v : (i < length buf)%nat -> bset buf i v = Some (set_nth buf i v).
Proof. unfold bset. intros H. replace (i <? length buf)%nat with true by lia. reflexivity. Qed.

(** Writing before a suffix extends the suffix. *)
Lemma bpush_ok buf l v : (0 < l <= length buf)%nat ->
  exists buf', bpush buf l v = Some (buf', (l - 1)%nat) /\ length buf' = length buf /\ skipn (l - 1) buf' = v :: skipn l buf.
Proof.
  intros H. destruct l as [|l]; [lia|]. cbn [bpush]. rewrite bset_ok by lia.
  exists (set_nth buf l v). replace (S l - 1)%nat with l by lia.
  split; [reflexivity|]. split; [apply set_nth_length | apply set_nth_skipn; lia].
Qed.
