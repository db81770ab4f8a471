(** encode.go:53-63, 155-183: encodeFloat32, encodeFloat64, appendFloat.

    A finite nonzero float is a sign, a positive mantissa and a binary
    exponent.  strconv's choice of the shortest decimal is a parameter
    ([shortest]): decimal digits d1 d2 ... dn and a position dp, meaning
    0.d1d2...dn * 10^dp; the layout of the digits ('e' and 'f' formats with
    precision -1) is modelled. *)
From Verif Require Import Base IntModel TypesModel.

Inductive fval := FNaN | FInf (neg : bool) | FZero (neg : bool) | FFin (neg : bool) (m : positive) (e : Z).

(** m1 * 2^e1 < m2 * 2^e2 *)
Definition dy_lt (m1 e1 m2 e2 : Z) : bool :=
  m1 * 2 ^ (e1 - Z.min e1 e2) <? m2 * 2 ^ (e2 - Z.min e1 e2).

(** The float64 and float32 constants 1e-6 and 1e21 of encode.go:169-170, as
    mantissa * 2^exponent (FloatProof checks that they are the nearest
    values). *)
Definition c64_lo : Z * Z := (0x10c6f7a0b5ed8d, -72).
Definition c64_hi : Z * Z := (1000000000000000000000, 0).
Definition c32_lo : Z * Z := (0x8637bd, -43).
Definition c32_hi : Z * Z := (0xd8d727, 46).

(** encode.go:166-173: whether the 'e' format is used. *)
Definition use_exp (is64 : bool) (f : fval) : bool :=
  match f with
  | FFin _ m e =>
    let lo := if is64 then c64_lo else c32_lo in
    let hi := if is64 then c64_hi else c32_hi in
    dy_lt (Zpos m) e (fst lo) (snd lo) || negb (dy_lt (Zpos m) e (fst hi) (snd hi))
  | _ => false
  end.

(** strconv.fmtE with shortest precision: d.ddde±dd *)
Definition fmt_exp (e : Z) : bytes :=
  let a := Z.abs e in
  (if e <? 0 then 45 else 43) ::
  (if a <? 10 then [48; 48 + a]
   else if a <? 100 then [48 + a / 10; 48 + a mod 10]
   else [48 + a / 100; 48 + a / 10 mod 10; 48 + a mod 10]).

Definition fmtE (ds : bytes) (dp : Z) : bytes :=
  match ds with
  | [] => 48 :: 101 :: fmt_exp 0
  | d :: [] => d :: 101 :: fmt_exp (dp - 1)
  | d :: ds' => d :: 46 :: ds' ++ 101 :: fmt_exp (dp - 1)
  end.

(** strconv.fmtF with precision max(nd - dp, 0): integer digits, zero padded,
    then the fraction. *)
Definition fmtF (ds : bytes) (dp : Z) : bytes :=
  let nd := length ds in
  let ip := if 0 <? dp then firstn (Z.to_nat dp) ds ++ repeat 48 (Z.to_nat dp - nd) else [48] in
  let fp := if 0 <? dp then skipn (Z.to_nat dp) ds else repeat 48 (Z.to_nat (- dp)) ++ ds in
  match ds, fp with
  | [], _ | _, [] => ip
  | _, _ => ip ++ 46 :: fp
  end.

(** strconv.AppendFloat(dst, f, format, -1, bs), finite f. *)
Definition fmt_float (shortest : bool -> positive -> Z -> bytes * Z) (is64 exp : bool) (f : fval) : bytes :=
  let lay := if exp then fmtE else fmtF in
  match f with
  | FZero neg => (if neg then [45] else []) ++ lay [] 0
  | FFin neg m e => let '(ds, dp) := shortest is64 m e in (if neg then [45] else []) ++ lay ds dp
  | _ => []
  end.

(** encode.go:175-181: e-09 becomes e-9; works on the whole buffer. *)
Definition exp_cleanup (dst : bytes) : bytes :=
  let n := length dst in
  if (4 <=? n)%nat && (at_ dst (n - 4) =? 101) && (at_ dst (n - 3) =? 45) && (at_ dst (n - 2) =? 48)
  then firstn (n - 2) dst ++ [at_ dst (n - 1)]
  else dst.

(** strconv.FormatFloat of a value that is not finite. *)
Definition special_text (f : fval) : bytes :=
  match f with FNaN => lit "NaN" | FInf neg => if neg then lit "-Inf" else lit "+Inf" | _ => [] end.

(** encode.go:155-183: appendFloat. *)
Definition appendFloat (shortest : bool -> positive -> Z -> bytes * Z) (dst : bytes) (f : fval) (is64 : bool) : res :=
  match f with
  | FNaN | FInf _ => Ret dst (Some (EUnsupportedValue (special_text f)))
  | _ =>
    let e := use_exp is64 f in
    let dst := dst ++ fmt_float shortest is64 e f in
    Ret (if e then exp_cleanup dst else dst) None
  end.
