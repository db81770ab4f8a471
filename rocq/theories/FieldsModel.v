(** struct.go: the fields of a struct type.

    The embedSeq slices are modelled with their backing arrays, because
    scanFields appends to a slice it does not own (struct.go:307).  Everything
    else is by value. *)
From Verif Require Import Base OptionsModel TypesModel TypesFacts TagsModel MemModel.

(** struct.go:17-20: seq. *)
Definition seqelt : Type := Z * bool.

(** Backing arrays, by number; array 0 is the empty one of nil slices.  The
    capacity of a slice is the size of its array (no slice here starts inside
    an array). *)
Definition heap := list (list seqelt).
Record slice := mkSlice { sl_arr : nat; sl_len : nat }.
Definition nil_slice : slice := mkSlice 0 0.
Definition sl_read (h : heap) (s : slice) : list seqelt := firstn (sl_len s) (nth (sl_arr s) h []).

Fixpoint set_elt {A} (l : list A) (i : nat) (x : A) : list A :=
  match l, i with
  | [], _ => []
  | _ :: l', O => x :: l'
  | y :: l', S i' => y :: set_elt l' i' x
  end.

(** Capacity after growth: runtime.growslice for one more 16-byte element
    doubles (0 becomes 1; 16, 32, 64, ... are allocation size classes). *)
Definition grow (c : nat) : nat := match c with O => 1%nat | _ => (2 * c)%nat end.

(** append(s, x) for a slice s: in place when the capacity allows. *)
Definition sl_append (h : heap) (s : slice) (x : seqelt) : heap * slice :=
  let a := nth (sl_arr s) h [] in
  if (sl_len s <? length a)%nat
  then (set_elt h (sl_arr s) (set_elt a (sl_len s) x), mkSlice (sl_arr s) (S (sl_len s)))
  else (h ++ [firstn (sl_len s) a ++ x :: repeat (0, false) (grow (length a) - S (sl_len s))],
        mkSlice (length h) (S (sl_len s))).

(** struct.go:22-40: field, without the parts filled in by
    newStructFieldsInstr. *)
Record field := mkField {
  f_name : bytes; f_tag : bool; f_quoted : bool; f_omitEmpty : bool; f_omitNil : bool;
  f_index : list nat; f_seq : list seqelt
}.

(** struct.go:50-60: byIndex.Less. *)
Fixpoint index_less (a b : list nat) : bool :=
  match a, b with
  | [], [] => false
  | [], _ :: _ => true
  | _ :: _, [] => false
  | x :: a', y :: b' => if (x =? y)%nat then index_less a' b' else (x <? y)%nat
  end.

(** struct.go:111-126: the order of sortFields. *)
Definition field_less (x y : field) : bool :=
  if negb (bytes_eqb (f_name x) (f_name y)) then bytes_ltb (f_name x) (f_name y)
  else if negb (length (f_index x) =? length (f_index y))%nat then (length (f_index x) <? length (f_index y))%nat
  else if negb (Bool.eqb (f_tag x) (f_tag y)) then f_tag x
  else index_less (f_index x) (f_index y).

(** sort.Slice and sort.Sort.  Both orders are total up to copies of the same
    field, so every correct sort gives this result
    (FieldsProof.sorted_fields_unique). *)
Section Sort.
  Context {A : Type} (less : A -> A -> bool).
  Fixpoint ins (x : A) (l : list A) : list A :=
    match l with
    | [] => [x]
    | y :: l' => if less y x then y :: ins x l' else x :: l
    end.
  Fixpoint isort (l : list A) : list A :=
    match l with [] => [] | x :: l' => ins x (isort l') end.
End Sort.

Section Fields.
  Variable H : host.
  Let E := h_env H.

  Definition is_struct (t : typ) : bool := match under E t with TStruct _ => true | _ => false end.
  Definition is_ptr (t : typ) : bool := match under E t with TPtr _ => true | _ => false end.
  Definition fields_of (t : typ) : list (fdecl * typ) := match under E t with TStruct fs => fs | _ => [] end.

  (** struct.go:130-149: shouldEncodeField. *)
  Definition should_encode (d : fdecl) (t : typ) : bool :=
    if fd_anon d then
      let t' := match under E t with TPtr e => e | _ => t end in
      if fd_unexported d && negb (is_struct t') then false else true
    else if fd_unexported d then false
    else true.

  (** struct.go:255-257: "typ.Name() == "" && isPtr" dereferences an unnamed
      pointer type. *)
  Definition strip_ptr (t : typ) : typ := match t with TPtr e => e | _ => t end.

  Inductive fclass :=
  | FSkip
  | FRecord (name : bytes) (tagged : bool) (opts : list bytes)
  | FEmbed.

  (** struct.go:236-266: what scanFields does with one struct field. *)
  Definition classify (d : fdecl) (t : typ) : fclass :=
    if negb (should_encode d t) then FSkip
    else if bytes_eqb (fd_tag d) [45] then FSkip
    else
      let '(name, opts) := parse_tag (fd_tag d) in
      let name := if is_valid_field_name (h_letter H) (h_udigit H) name then name else [] in
      let tagged := negb (bytes_eqb name []) in
      if tagged || negb (fd_anon d) || negb (is_struct (strip_ptr t))
      then FRecord (if tagged then name else fd_name d) tagged opts
      else FEmbed.

  (** An embedded struct to scan: the fields of [field] that scanFields uses. *)
  Record bfield := mkB { b_typ : typ; b_index : list nat; b_seq : slice }.

  Record sstate := mkS { s_flds : list field; s_next : list bfield; s_ncnt : list typ; s_heap : heap }.

  (** typeCount: the multiset of counted types. *)
  Definition count (t : typ) (l : list typ) : nat := length (filter (typ_eqb t) l).

  (** struct.go:233-311: one iteration of the loop of scanFields.  [dup] is
      cnt[f.typ] > 1. *)
  Definition scan1 (f : bfield) (dup : bool) (i : nat) (d : fdecl) (t : typ) (off : Z) (st : sstate) : sstate :=
    match classify d t with
    | FSkip => st
    | FRecord name tagged opts =>
      let nf := mkField name tagged
                  (tag_contains opts (lit "string") && isBasicType E (strip_ptr t))
                  (tag_contains opts (lit "omitempty")) (tag_contains opts (lit "omitnil"))
                  (b_index f ++ [i]) (sl_read (s_heap st) (b_seq f) ++ [(off, false)]) in
      mkS (s_flds st ++ if dup then [nf; nf] else [nf]) (s_next st) (s_ncnt st) (s_heap st)
    | FEmbed =>
      let t' := strip_ptr t in
      let ncnt := s_ncnt st ++ [t'] in
      if (count t' ncnt =? 1)%nat then
        let '(h, s) := sl_append (s_heap st) (b_seq f) (off, is_ptr t) in
        mkS (s_flds st) (s_next st ++ [mkB t' (b_index f ++ [i]) s]) ncnt h
      else mkS (s_flds st) (s_next st) ncnt (s_heap st)
    end.

  (** struct.go:230-312: scanFields. *)
  Fixpoint scan_loop (f : bfield) (dup : bool) (all : list (fdecl * typ)) (i : nat) (fs : list (fdecl * typ)) (st : sstate) : sstate :=
    match fs with
    | [] => st
    | (d, t) :: fs' => scan_loop f dup all (S i) fs' (scan1 f dup i d t (h_off H all i) st)
    end.
  Definition scanFields (f : bfield) (dup : bool) (st : sstate) : sstate :=
    scan_loop f dup (fields_of (b_typ f)) 0 (fields_of (b_typ f)) st.

  (** struct.go:89-96: the loop over one level. *)
  Fixpoint level (ccnt : list typ) (curr : list bfield) (seen : list typ) (st : sstate) : list typ * sstate :=
    match curr with
    | [] => (seen, st)
    | f :: curr' =>
      if existsb (typ_eqb (b_typ f)) seen then level ccnt curr' seen st
      else level ccnt curr' (b_typ f :: seen) (scanFields f (1 <? count (b_typ f) ccnt)%nat st)
    end.

  (** struct.go:85-97: the loop over levels; [None]: out of fuel. *)
  Fixpoint bfs (fuel : nat) (seen : list typ) (st : sstate) : option (list field) :=
    match s_next st with
    | [] => Some (s_flds st)
    | curr =>
      match fuel with
      | O => None
      | S fuel' => let '(seen', st') := level (s_ncnt st) curr seen (mkS (s_flds st) [] [] (s_heap st)) in bfs fuel' seen' st'
      end
    end.

  (** struct.go:184-189: the run of fields that share the first one's name. *)
  Fixpoint span_name (n : bytes) (l : list field) : list field * list field :=
    match l with
    | f :: l' => if bytes_eqb (f_name f) n then let '(a, b) := span_name n l' in (f :: a, b) else ([], l)
    | [] => ([], [])
    end.

  (** struct.go:221-228: dominantField. *)
  Definition dominant (l : list field) : list field :=
    match l with
    | f0 :: f1 :: _ =>
      if (length (f_index f0) =? length (f_index f1))%nat && Bool.eqb (f_tag f0) (f_tag f1) then [] else [f0]
    | [f0] => [f0]
    | [] => []
    end.

  (** struct.go:176-203: filterByVisibility. *)
  Fixpoint filter_vis (fuel : nat) (l : list field) : list field :=
    match fuel, l with
    | S fuel', f :: l' =>
      let '(g, r) := span_name (f_name f) l' in
      (match g with [] => [f] | _ => dominant (f :: g) end) ++ filter_vis fuel' r
    | _, _ => []
    end.

  Definition select_fields (flds : list field) : list field :=
    let l := isort field_less flds in
    isort (fun x y => index_less (f_index x) (f_index y)) (filter_vis (length l) l).

  (** struct.go:76-106: structFields. *)
  Definition structFields (fuel : nat) (t : typ) : option (list field) :=
    match bfs fuel [] (mkS [] [mkB t [] nil_slice] [] [[]]) with
    | Some flds => Some (select_fields flds)
    | None => None
    end.

  (** struct.go:205-213: typeByIndex; t.Field(i) panics when t is not a struct
      or i is out of range. *)
  Fixpoint type_by_index (t : typ) (index : list nat) : option typ :=
    match index with
    | [] => Some t
    | i :: p =>
      let t := match under E t with TPtr e => e | _ => t end in
      match nth_error (fields_of t) i with
      | Some (_, t') => type_by_index t' p
      | None => None
      end
    end.

  (** Not part of the code: the offsets and indirections that lead to the field
      with this index, read off the declarations, and whether embedSeq holds
      them. *)
  Fixpoint path_seq (t : typ) (index : list nat) : option (list seqelt) :=
    match index with
    | [] => None
    | i :: p =>
      match nth_error (fields_of t) i, p with
      | Some _, [] => Some [(h_off H (fields_of t) i, false)]
      | Some (_, u), _ => match path_seq (strip_ptr u) p with Some l => Some ((h_off H (fields_of t) i, is_ptr u) :: l) | None => None end
      | None, _ => None
      end
    end.
  Fixpoint seq_eqb (a b : list seqelt) : bool :=
    match a, b with
    | [], [] => true
    | (x, p) :: a', (y, q) :: b' => (x =? y) && Bool.eqb p q && seq_eqb a' b'
    | _, _ => false
    end.
  Definition right_seq (t : typ) (f : field) : bool :=
    match path_seq t (f_index f) with Some l => seq_eqb l (f_seq f) | None => false end.

  Lemma seq_eqb_eq a b : seq_eqb a b = true <-> a = b.
  Proof.
    revert b. induction a as [|[x p] a IH]; intros [|[y q] b]; cbn [seq_eqb]; try (split; [discriminate | intros C; discriminate C]); [tauto|].
    rewrite !andb_true_iff, Z.eqb_eq, Bool.eqb_true_iff, IH. split; [intros ((-> & ->) & ->); reflexivity | intros C; injection C; auto].
  Qed.
End Fields.
