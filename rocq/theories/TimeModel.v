(** time.go:5, 37, 153-253 (rdnToYmd, appendRFC3339Time) and encode.go:105-153
    (encodeTime, encodeDuration). *)
From Verif Require Import Base IntModel BufModel TypesModel OptionsModel DurationModel.

(** A time.Time: Unix seconds, nanoseconds within the second, and the offset
    in seconds of its location at that instant.  The monotonic clock and the
    zone abbreviation play no role for the code modelled here. *)
Record gtime := mkTime { t_unix : Z; t_nsec : Z; t_offset : Z }.

Definition gtime_ok (t : gtime) : Prop :=
  - 2 ^ 63 <= t_unix t < 2 ^ 63 /\ 0 <= t_nsec t < 1000000000 /\ - 2 ^ 31 <= t_offset t < 2 ^ 31.

(** time.Time.Year (standard library): the civil year of the local time, here
    computed from the day number by the usual era decomposition and proved
    against the calendar specification (TimeProof.year_of_day_correct).  Go
    computes it modulo 2^64 seconds; for int64 Unix seconds a wrapped value is
    still a year outside [0,9999], which is all encodeTime looks at. *)
Definition year_of_day (n : Z) : Z :=
  let z := n + 305 in
  let era := z / 146097 in
  let doe := z mod 146097 in
  let yoe := (doe - doe / 1460 + doe / 36524 - doe / 146096) / 365 in
  let doy := doe - (365 * yoe + yoe / 4 - yoe / 100) in
  yoe + era * 400 + (if 306 <=? doy then 1 else 0).

Definition time_year (t : gtime) : Z := year_of_day ((t_unix t + t_offset t) / 86400 + 719163).

(** time.go:5 *)
Definition epoch : Z := 62135683200.

(** time.go:37 *)
Definition dayOffset : list Z := [0; 306; 337; 0; 31; 61; 92; 122; 153; 184; 214; 245; 275].

Definition u32 (n : Z) : Z := wrap_u 32 n.
Definition u16 (n : Z) : Z := wrap_u 16 n.
Definition u8 (n : Z) : Z := wrap_u 8 n.

(** time.go:153-169: rdnToYmd, all arithmetic in uint32; [None] is the index
    panic of dayOffset[m]. *)
Definition rdnToYmd (rdn : Z) : option (Z * Z * Z) :=
  let Zd := u32 (rdn + 306) in
  let H := u32 (u32 (100 * Zd) - 25) in
  let A := H / 3652425 in
  let B := u32 (A - A / 4) in
  let y := u32 (u32 (100 * B) + H) / 36525 in
  let d := u32 (u32 (B + Zd) - u32 (1461 * y) / 4) in
  let m := u32 (u32 (535 * d) + 48950) / 16384 in
  let '(y, m) := if 12 <? m then (u32 (y + 1), u32 (m - 12)) else (y, m) in
  if m <=? 12 then Some (u16 y, u16 m, u16 (u16 d - nth (Z.to_nat m) dayOffset 0)) else None.

(** byte(x) + '0' for a Go integer x (possibly negative). *)
Definition dig (x : Z) : Z := u8 (u8 x + 48).

(** time.go:184-187: four digits of the year, i from 4 down to 1. *)
Fixpoint put_digits (k : nat) (buf : bytes) (base : nat) (y : Z) : option bytes :=
  match k with
  | O => Some buf
  | S k' => do buf' <- bset buf (base + k) (dig (Z.rem y 10)); put_digits k' buf' base (Z.quot y 10)
  end.

(** time.go:215-222: number of trailing '0' among buf[n+1..n+i]. *)
Fixpoint rpad (i : nat) (buf : bytes) (n : nat) : nat :=
  match i with
  | O => O
  | S i' => if nth (n + i) buf 0 =? 48 then S (rpad i' buf n) else O
  end.

(** time.go:205-224: fraction of the second at index n. *)
Definition frac_step (nano : bool) (nsec : Z) (buf : bytes) (n : nat) : option (bytes * nat) :=
  if nano && negb (nsec =? 0) then
       do buf <- bset buf n 46;
       do buf <- put_digits 9 buf n nsec;
       Some (buf, (n + (10 - rpad 9 buf n))%nat)
     else Some (buf, n).

(** time.go:225-245: zone at index n. *)
Definition zone_step (offset : Z) (buf : bytes) (n : nat) : option (bytes * nat) :=
  if offset =? 0 then do buf <- bset buf n 90; Some (buf, (n + 1)%nat)
     else
       let zone := Z.quot offset 60 in
       do buf <- bset buf n (if zone <? 0 then 45 else 43);
       let z := if zone <? 0 then - zone else zone in
       do buf <- bset buf (n + 3) 58;
       do buf <- bset buf (n + 5) (dig (Z.rem z 10)); let z := Z.quot z 10 in
       do buf <- bset buf (n + 4) (dig (Z.rem z 6)); let z := Z.quot z 6 in
       do buf <- bset buf (n + 2) (dig (Z.rem z 10)); let z := Z.quot z 10 in
       do buf <- bset buf (n + 1) (dig (Z.rem z 10));
       Some (buf, (n + 6)%nat).

(** time.go:175-201: date and time of day in the 37-byte array; integers are
    int64 with Go's truncating division. *)
Definition rfc_head (sec : Z) : option bytes :=
  let buf := repeat 0 37 in
  do buf <- bset buf 0 34; do buf <- bset buf 5 45; do buf <- bset buf 8 45;
  do buf <- bset buf 11 84; do buf <- bset buf 14 58; do buf <- bset buf 17 58;
  do (y, m, d) <- rdnToYmd (u32 (Z.quot sec 86400));
  do buf <- put_digits 4 buf 0 y;
  do buf <- bset buf 7 (dig (Z.rem m 10)); let m := Z.quot m 10 in
  do buf <- bset buf 6 (dig (Z.rem m 10));
  do buf <- bset buf 10 (dig (Z.rem d 10)); let d := Z.quot d 10 in
  do buf <- bset buf 9 (dig (Z.rem d 10));
  let s := Z.rem sec 86400 in
  do buf <- bset buf 19 (dig (Z.rem s 10)); let s := Z.quot s 10 in
  do buf <- bset buf 18 (dig (Z.rem s 6)); let s := Z.quot s 6 in
  do buf <- bset buf 16 (dig (Z.rem s 10)); let s := Z.quot s 10 in
  do buf <- bset buf 15 (dig (Z.rem s 6)); let s := Z.quot s 6 in
  do buf <- bset buf 13 (dig (Z.rem s 10)); let s := Z.quot s 10 in
  bset buf 12 (dig (Z.rem s 10)).

(** time.go:174-253: appendRFC3339Time; [None] is an index panic. *)
Definition appendRFC3339Time (t : gtime) (dst : bytes) (nano : bool) : option bytes :=
  let offset := t_offset t in
  let sec := wrap_i 64 (wrap_i 64 (t_unix t + offset) + epoch) in
  do buf <- rfc_head sec;
  do (buf, n) <- frac_step nano (t_nsec t) buf 20;
  do (buf, n) <- zone_step offset buf n;
  do buf <- bset buf n 34;
  Some (dst ++ firstn (n + 1) buf).

(** encode.go:107-129: encodeTime.  [fmt] is time.Time.AppendFormat for the
    other layouts (standard library, a parameter). *)
Definition encode_time (fmt : gtime -> bytes -> bytes) (t : gtime) (dst : bytes) (o : encOpts) : res :=
  let y := time_year t in
  if (y <? 0) || (10000 <=? y) then Ret dst (Some EYear)
  else if has (o_flags o) unixTime then Ret (append_int dst (t_unix t)) None
  else if bytes_eqb (o_timeLayout o) layout_RFC3339 then ret_opt (appendRFC3339Time t dst false)
  else if bytes_eqb (o_timeLayout o) layout_RFC3339Nano then ret_opt (appendRFC3339Time t dst true)
  else Ret (dst ++ [34] ++ fmt t (o_timeLayout o) ++ [34]) None.
