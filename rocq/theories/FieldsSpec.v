(** Which struct fields are encoded: the visibility rules, stated on the type
    graph, without the breadth-first search.  Nothing here refers to the model
    of struct.go. *)
From Verif Require Import Base Utf8 TypesModel TagsProof.

Section Spec.
  Variable E : tenv.
  Variable off : list (fdecl * typ) -> nat -> Z.
  Variables letter udigit : Z -> bool.

  Definition struct_of (t : typ) (fs : list (fdecl * typ)) : Prop := under E t = TStruct fs.
  Definition structural (t : typ) : Prop := exists fs, struct_of t fs.

  (** A field takes part when it is exported, or when it is an embedded struct
      or pointer to struct, whatever its name; a tag "-" removes it. *)
  Definition takes_part (d : fdecl) (u : typ) : Prop :=
    (fd_unexported d = false \/
     (fd_anon d = true /\ (structural u \/ exists e, under E u = TPtr e /\ structural e))) /\
    fd_tag d <> lit "-".

  (** The name part of a tag, when it is a valid JSON name. *)
  Definition tag_name (d : fdecl) (n : bytes) (opts : list bytes) : Prop :=
    fd_tag d = join (n :: opts) /\ no_comma n /\ Forall no_comma opts.

  (** The struct type an embedded field of type u brings in. *)
  Definition deref (u t : typ) : Prop := u = TPtr t \/ ((forall e, u <> TPtr e) /\ t = u).

  (** Field i of struct type t: embeds the struct t'. [isptr]: through a pointer. *)
  Definition embeds (t : typ) (i : nat) (isptr : bool) (t' : typ) : Prop :=
    exists fs d u n opts, struct_of t fs /\ nth_error fs i = Some (d, u) /\ takes_part d u /\
      fd_anon d = true /\ tag_name d n opts /\ ~ valid_name letter udigit n /\ deref u t' /\ structural t' /\
      (isptr = true <-> exists e, under E u = TPtr e).

  (** ... or is a candidate for encoding, with a JSON name and the options of
      its tag; [tagged]: the name comes from the tag. *)
  Definition candidate_here (t : typ) (i : nat) (u : typ) (name : bytes) (tagged : bool) (opts : list bytes) : Prop :=
    exists fs d n, struct_of t fs /\ nth_error fs i = Some (d, u) /\ takes_part d u /\ tag_name d n opts /\
      ((valid_name letter udigit n /\ name = n /\ tagged = true) \/
       (~ valid_name letter udigit n /\ name = fd_name d /\ tagged = false /\
        (fd_anon d = true -> forall t', deref u t' -> ~ structural t'))).

  (** Embedding paths from t, with the byte offset and indirection of each step. *)
  Inductive epath (t : typ) : list nat -> list (Z * bool) -> typ -> Prop :=
  | ep_nil : epath t [] [] t
  | ep_snoc p sq w i isptr fs u : epath t p sq w -> embeds w i isptr u -> struct_of w fs ->
      epath t (p ++ [i]) (sq ++ [(off fs i, isptr)]) u.

  (** Lengths at which a slice grown one element at a time from nil has no room
      left: append then moves the elements to a new array. *)
  Definition roomless (n : nat) : Prop := n = 0%nat \/ exists k, n = (2 ^ k)%nat.

  (** Embedding paths whose steps are never written over: at each depth where a
      slice of that length has room left, the step is the last embedded struct
      of its struct. *)
  Inductive unshared (t : typ) : list nat -> Prop :=
  | us_nil : unshared t []
  | us_snoc p sq w i : epath t p sq w -> unshared t p ->
      roomless (length p) \/ (forall j isptr u, (i < j)%nat -> ~ embeds w j isptr u) -> unshared t (p ++ [i]).

  (** A candidate of t: an embedding path and a candidate field at its end. *)
  Definition candidate (t : typ) (index : list nat) (name : bytes) (tagged : bool) : Prop :=
    exists p sq w i u opts, epath t p sq w /\ candidate_here w i u name tagged opts /\ index = p ++ [i].

  (** Less deep first; at equal depth, tagged first. *)
  Definition rank_le (d1 : nat) (tag1 : bool) (d2 : nat) (tag2 : bool) : Prop :=
    (d1 < d2)%nat \/ (d1 = d2 /\ (tag1 = true \/ tag2 = false)).

  Definition least (t : typ) (index : list nat) (name : bytes) (tagged : bool) : Prop :=
    candidate t index name tagged /\
    forall j g, candidate t j name g -> rank_le (length index) tagged (length j) g.

  Definition only_least (t : typ) (index : list nat) (name : bytes) (tagged : bool) : Prop :=
    candidate t index name tagged /\
    forall j g, candidate t j name g -> rank_le (length j) g (length index) tagged -> j = index.

  (** What becomes of a struct type embedded several times.  Only its shortest
      embedding paths count. *)
  Definition shortest (t : typ) (p : list nat) (w : typ) : Prop :=
    (exists sq, epath t p sq w) /\ forall q sq, epath t q sq w -> (length p <= length q)%nat.

  (** Two embedded fields, of structs that are themselves at the end of shortest
      paths, bring in w.  The number of paths to those structs does not matter. *)
  Definition embedded_twice (t w : typ) : Prop :=
    exists p i w1 q j w2, shortest t (p ++ [i]) w /\ shortest t p w1 /\ shortest t (q ++ [j]) w /\ shortest t q w2 /\ (w1, i) <> (w2, j).
End Spec.
