(** Memory as seen through unsafe pointers, and the parameters that stand for
    package reflect, the standard library and user methods.

    Addresses are integers, 0 is nil.  A cell holds one typed machine word (or
    an opaque object); reading a cell at another type than the one stored is a
    wild access.  A string header is two cells (data pointer, length), a slice
    header three, an interface two (type word, data word), 8 bytes apart; the
    bytes of a string or byte slice are uint8 cells one byte apart.  A map is a
    pointer to one cell holding the addresses of its entries, in the order the
    runtime iterates them. *)
From Verif Require Import Base IntModel TypesModel OptionsModel TimeModel FloatModel.

(** An empty interface value: dynamic type and data word (unsafe.go:10-13);
    [None] is the nil interface. *)
Definition eface := option (typ * Z).

Inductive cell :=
| CBool (b : bool)
| CInt (k : ikind) (n : Z)
| CFloat (is64 : bool) (f : fval)
| CPtr (a : Z)                             (* pointer word; also the data words of headers *)
| CType (t : typ)                          (* type word of a non-nil interface{} *)
| CTab (t : typ)                           (* itab word of a non-nil interface with methods *)
| CMap (es : list (Z * Z))                 (* hmap: addresses of keys and elements *)
| CTime (t : gtime)                        (* time.Time *)
| CSync (es : list (eface * eface)).       (* sync.Map: what Range yields *)

Definition mem := Z -> option cell.

(** A pointer: into memory, or to the local variable of wrapInlineInstr
    (instruction.go:407-411) that holds the pointer word w; [off] is an offset
    added to it. *)
Inductive loc := LMem (a : Z) | LTmp (w off : Z).

Definition ladd (l : loc) (n : Z) : loc :=
  match l with LMem a => LMem (a + n) | LTmp w o => LTmp w (o + n) end.

Definition rd (m : mem) (l : loc) : option cell :=
  match l with LMem a => m a | LTmp w o => if o =? 0 then Some (CPtr w) else None end.

(** *( *unsafe.Pointer)(p): type and itab words are non-nil pointers. *)
Inductive word := WNil | WPtr (a : Z) | WMeta.
Definition rd_word (m : mem) (l : loc) : option word :=
  match rd m l with
  | Some (CPtr a) => Some (if a =? 0 then WNil else WPtr a)
  | Some (CType _) | Some (CTab _) => Some WMeta
  | _ => None
  end.

Definition rd_int (m : mem) (l : loc) (k : ikind) : option Z :=
  match rd m l with
  | Some (CInt k' n) => if match k, k' with
                           | KInt, KInt | KInt8, KInt8 | KInt16, KInt16 | KInt32, KInt32 | KInt64, KInt64
                           | KUint, KUint | KUint8, KUint8 | KUint16, KUint16 | KUint32, KUint32
                           | KUint64, KUint64 | KUintptr, KUintptr => true
                           | _, _ => false end then Some n else None
  | _ => None
  end.

(** n consecutive bytes at address a. *)
Fixpoint rd_bytes (m : mem) (a : Z) (n : nat) : option bytes :=
  match n with
  | O => Some []
  | S n' =>
    match rd_int m (LMem a) KUint8, rd_bytes m (a + 1) n' with
    | Some b, Some bs => Some (b :: bs)
    | _, _ => None
    end
  end.

(** A header: data pointer and length (unsafe.go:17-28). *)
Definition rd_header (m : mem) (l : loc) : option (Z * Z) :=
  match rd m l, rd_int m (ladd l 8) KInt with
  | Some (CPtr a), Some n => if 0 <=? n then Some (a, n) else None
  | _, _ => None
  end.

(** *( *string)(p), and sp2b (unsafe.go:60-67). *)
Definition rd_string (m : mem) (l : loc) : option bytes :=
  match rd_header m l with Some (a, n) => rd_bytes m a (Z.to_nat n) | None => None end.

(** *( *[]byte)(p): [Some None] is the nil slice. *)
Definition rd_byte_slice (m : mem) (l : loc) : option (option bytes) :=
  match rd_header m l with
  | Some (a, n) =>
    if a =? 0 then Some None
    else match rd_bytes m a (Z.to_nat n) with Some b => Some (Some b) | None => None end
  | None => None
  end.

(** *( *interface{})(p) *)
Definition rd_eface (m : mem) (l : loc) : option eface :=
  match rd m l with
  | Some (CPtr a) => if a =? 0 then Some None else None
  | Some (CType t) => match rd m (ladd l 8) with Some (CPtr w) => Some (Some (t, w)) | _ => None end
  | _ => None
  end.

(** *( *interface{ M() })(p), converted to interface{} *)
Definition rd_iface (m : mem) (l : loc) : option eface :=
  match rd m l with
  | Some (CPtr a) => if a =? 0 then Some None else None
  | Some (CTab t) => match rd m (ladd l 8) with Some (CPtr w) => Some (Some (t, w)) | _ => None end
  | _ => None
  end.

(** ** Parameters *)
Record host := mkHost {
  (* reflect: underlying types, field offsets, sizes, method sets *)
  h_env : tenv;
  h_off : list (fdecl * typ) -> nat -> Z;
  h_size : typ -> Z;
  h_impl : typ -> mkind -> bool;
  (* user methods, called on an interface value (type, data word) in memory,
     with the context and the destination; [None]: the method crashed *)
  h_call : mkind -> typ -> loc -> mem -> option Z -> bytes -> option (bytes + Z);
  (* standard library *)
  h_letter : Z -> bool;
  h_udigit : Z -> bool;
  h_fmt : gtime -> bytes -> bytes;
  h_tofloat : bool -> Z -> fval;
  h_shortest : bool -> positive -> Z -> bytes * Z;
  h_sort : list (bytes * bytes) -> list (bytes * bytes)
}.

Definition kind_of (H : host) (t : typ) : typ := under (h_env H) t.
