(** options.go: encoding options.

    A Go context is an opaque identity (Z); [None] is the nil context.  The
    field sets (map[string]struct{}) are lists of names; only membership is
    observable.  [None] is the nil map. *)
From Verif Require Import Base.

(** options.go:23-26: bitmask, set and has, on uint64 values. *)
Definition bitmask := Z.
Definition bm_set (b f : bitmask) : bitmask := Z.lor b f.
Definition has (b f : bitmask) : bool := negb (Z.land b f =? 0).

(** options.go:28-40: the iota constants, 1 << iota. *)
Definition unixTime : bitmask := Z.shiftl 1 0.
Definition unsortedMap : bitmask := Z.shiftl 1 1.
Definition rawByteSlice : bitmask := Z.shiftl 1 2.
Definition byteArrayAsString : bitmask := Z.shiftl 1 3.
Definition nilMapEmpty : bitmask := Z.shiftl 1 4.
Definition nilSliceEmpty : bitmask := Z.shiftl 1 5.
Definition noStringEscaping : bitmask := Z.shiftl 1 6.
Definition noHTMLEscaping : bitmask := Z.shiftl 1 7.
Definition noUTF8Coercion : bitmask := Z.shiftl 1 8.
Definition noCompact : bitmask := Z.shiftl 1 9.
Definition noNumberValidation : bitmask := Z.shiftl 1 10.

(** time.go:9-19: DurationFmt, an int. *)
Definition DurationString : Z := 0.
Definition DurationMinutes : Z := 1.
Definition DurationSeconds : Z := 2.
Definition DurationMilliseconds : Z := 3.
Definition DurationMicroseconds : Z := 4.
Definition DurationNanoseconds : Z := 5.

(** time.go:30-32: DurationFmt.valid. *)
Definition dur_valid (f : Z) : bool := (DurationString <=? f) && (f <=? DurationNanoseconds).

(** options.go:42-49: encOpts. *)
Record encOpts := mkOpts {
  o_ctx : option Z;
  o_timeLayout : bytes;
  o_durationFmt : Z;
  o_flags : bitmask;
  o_allow : option (list bytes);
  o_deny : option (list bytes)
}.

(** time.RFC3339Nano and time.RFC3339 (package time constants). *)
Definition layout_RFC3339Nano : bytes := Eval vm_compute in lit "2006-01-02T15:04:05.999999999Z07:00".
Definition layout_RFC3339 : bytes := Eval vm_compute in lit "2006-01-02T15:04:05Z07:00".

(** context.TODO() *)
Definition ctx_todo : Z := 0.

(** options.go:51-57 (constants at 13 and 17): defaultEncOpts. *)
Definition default_opts : encOpts :=
  mkOpts (Some ctx_todo) layout_RFC3339Nano DurationNanoseconds 0 None None.

(** The Option values options.go can build (113-234).  A nil Option is [None]
    in the list given to [apply]. *)
Inductive option_ :=
| OUnixTime | OUnsortedMap | ORawByteSlice | OByteArrayAsString | ONilMapEmpty | ONilSliceEmpty
| ONoStringEscaping | ONoHTMLEscaping | ONoUTF8Coercion | ONoNumberValidation | ONoCompact
| OTimeLayout (l : bytes) | ODurationFormat (f : Z) | OWithContext (c : option Z)
| OAllowList (l : list bytes) | ODenyList (l : list bytes).

Definition set_flag (o : encOpts) (f : bitmask) : encOpts :=
  mkOpts (o_ctx o) (o_timeLayout o) (o_durationFmt o) (bm_set (o_flags o) f) (o_allow o) (o_deny o).

(** options.go:101-107: fieldListToSet; the set is non-nil even for an empty list. *)
Definition fieldListToSet (l : list bytes) : option (list bytes) := Some l.

(** options.go:113-234: what each Option does. *)
Definition apply1 (o : encOpts) (x : option_) : encOpts :=
  match x with
  | OUnixTime => set_flag o unixTime
  | OUnsortedMap => set_flag o unsortedMap
  | ORawByteSlice => set_flag o rawByteSlice
  | OByteArrayAsString => set_flag o byteArrayAsString
  | ONilMapEmpty => set_flag o nilMapEmpty
  | ONilSliceEmpty => set_flag o nilSliceEmpty
  | ONoStringEscaping => set_flag o noStringEscaping
  | ONoHTMLEscaping => set_flag o noHTMLEscaping
  | ONoUTF8Coercion => set_flag o noUTF8Coercion
  | ONoNumberValidation => set_flag o noNumberValidation
  | ONoCompact => set_flag o noCompact
  | OTimeLayout l => mkOpts (o_ctx o) l (o_durationFmt o) (o_flags o) (o_allow o) (o_deny o)
  | ODurationFormat f => mkOpts (o_ctx o) (o_timeLayout o) f (o_flags o) (o_allow o) (o_deny o)
  | OWithContext c => mkOpts c (o_timeLayout o) (o_durationFmt o) (o_flags o) (o_allow o) (o_deny o)
  | OAllowList l => mkOpts (o_ctx o) (o_timeLayout o) (o_durationFmt o) (o_flags o) (fieldListToSet l) (o_deny o)
  | ODenyList l => mkOpts (o_ctx o) (o_timeLayout o) (o_durationFmt o) (o_flags o) (o_allow o) (fieldListToSet l)
  end.

(** options.go:59-65: apply; nil options are skipped. *)
Fixpoint apply (o : encOpts) (l : list (option option_)) : encOpts :=
  match l with
  | [] => o
  | Some x :: l' => apply (apply1 o x) l'
  | None :: l' => apply o l'
  end.

(** options.go:67-78: validate; [None] is the nil error. *)
Inductive oerr := NilContext | EmptyLayout | UnknownFormat.
Definition validate (o : encOpts) : option oerr :=
  match o_ctx o with
  | None => Some NilContext
  | Some _ =>
    if bytes_eqb (o_timeLayout o) [] then Some EmptyLayout
    else if negb (dur_valid (o_durationFmt o)) then Some UnknownFormat
    else None
  end.

Definition mem_bytes (x : bytes) (l : list bytes) : bool := existsb (bytes_eqb x) l.

(** options.go:83-97: isDeniedField. *)
Definition isDeniedField (o : encOpts) (name : bytes) : bool :=
  if match o_deny o with Some d => mem_bytes name d | None => false end then true
  else if match o_allow o with Some a => negb (mem_bytes name a) | None => false end then true
  else false.

Lemma mem_bytes_In x l : mem_bytes x l = true <-> In x l.
Proof.
  unfold mem_bytes. rewrite existsb_exists. split.
  - intros (y & Hy & E). apply bytes_eqb_eq in E. congruence.
  - intros H. exists x. split; [exact H | apply bytes_eqb_refl].
Qed.
