(** integer.go and strconv.AppendInt / AppendUint in base 10. *)
From Verif Require Import Base.

(** ** Decimal formatting (package strconv)

    Repeated division by ten, least significant digit first, as strconv does;
    [fuel] bounds the number of digits and is always sufficient
    (IntProof.v). *)
Fixpoint udec (fuel : nat) (n : Z) (acc : bytes) : bytes :=
  match fuel with
  | O => acc
  | S f => if n <? 10 then (48 + n) :: acc else udec f (n / 10) ((48 + n mod 10) :: acc)
  end.

Definition dec_digits (n : Z) : bytes := udec (S (Z.to_nat (Z.log2 n))) n [].

(** strconv.AppendUint(dst, n, 10) *)
Definition append_uint (dst : bytes) (n : Z) : bytes := dst ++ dec_digits n.

(** strconv.AppendInt(dst, n, 10) *)
Definition append_int (dst : bytes) (n : Z) : bytes :=
  if n <? 0 then dst ++ 45 :: dec_digits (- n) else dst ++ dec_digits n.

(** ** Go integer conversions *)
Definition wrap_u (w : Z) (n : Z) : Z := n mod 2 ^ w.
Definition wrap_i (w : Z) (n : Z) : Z := (n + 2 ^ (w - 1)) mod 2 ^ w - 2 ^ (w - 1).

(** The integer kinds the encoder distinguishes (integer.go).  int, uint and
    uintptr are 64 bits wide: the model fixes a 64-bit platform. *)
Inductive ikind := KInt | KInt8 | KInt16 | KInt32 | KInt64
  | KUint | KUint8 | KUint16 | KUint32 | KUint64 | KUintptr.

Definition signed (k : ikind) : bool :=
  match k with KInt | KInt8 | KInt16 | KInt32 | KInt64 => true | _ => false end.

Definition width (k : ikind) : Z :=
  match k with
  | KInt8 | KUint8 => 8
  | KInt16 | KUint16 => 16
  | KInt32 | KUint32 => 32
  | _ => 64
  end.

(** The values of a kind. *)
Definition int_range (k : ikind) (n : Z) : Prop :=
  if signed k then - 2 ^ (width k - 1) <= n < 2 ^ (width k - 1) else 0 <= n < 2 ^ width k.

(** integer.go:9-83: encodeInt ... encodeUintptr, on the value read: signed
    kinds go through int64(...) and AppendInt, unsigned ones through
    uint64(...) and AppendUint. *)
Definition encode_int (k : ikind) (n : Z) (dst : bytes) : bytes :=
  if signed k then append_int dst (wrap_i 64 n) else append_uint dst (wrap_u 64 n).
