(** time.go:34-151: appendDuration, fmtInt, fmtFrac. *)
From Verif Require Import Base IntModel BufModel.

Definition second : Z := 1000000000.
Definition millisecond : Z := 1000000.
Definition microsecond : Z := 1000.

(** time.go:119-123: the digits loop of fmtInt, v a uint64 below 2^64; fuel 20
    is the number of decimal digits of a uint64. *)
Fixpoint fmt_int_loop (fuel : nat) (buf : bytes) (w : nat) (v : Z) : option (bytes * nat) :=
  match fuel with
  | O => if 0 <? v then None else Some (buf, w)
  | S f =>
    if 0 <? v then
      do (buf', w') <- bpush buf w (v mod 10 + 48);
      fmt_int_loop f buf' w' (v / 10)
    else Some (buf, w)
  end.

(** time.go:113-126: fmtInt on buf[:w]. *)
Definition fmt_int (buf : bytes) (w : nat) (v : Z) : option (bytes * nat) :=
  if v =? 0 then bpush buf w 48 else fmt_int_loop 20 buf w v.

(** time.go:137-145: the loop of fmtFrac, [n] iterations left. *)
Fixpoint fmt_frac_loop (n : nat) (buf : bytes) (w : nat) (v : Z) (print : bool) : option (bytes * nat * Z * bool) :=
  match n with
  | O => Some (buf, w, v, print)
  | S n' =>
    let digit := v mod 10 in
    let print' := print || negb (digit =? 0) in
    if print' then
      do (buf', w') <- bpush buf w (digit + 48);
      fmt_frac_loop n' buf' w' (v / 10) print'
    else fmt_frac_loop n' buf w (v / 10) print'
  end.

(** time.go:133-151: fmtFrac on buf[:w]. *)
Definition fmt_frac (buf : bytes) (w : nat) (v : Z) (prec : nat) : option (bytes * nat * Z) :=
  do (buf1, w1, v1, print) <- fmt_frac_loop prec buf w v false;
  if print then do (buf2, w2) <- bpush buf1 w1 46; Some (buf2, w2, v1)
  else Some (buf1, w1, v1).

(** time.go:70: copy(buf[l:], "µ"), two bytes 0xC2 0xB5. *)
Definition copy_micro (buf : bytes) (l : nat) : option bytes :=
  do b1 <- bset buf l 0xC2; bset b1 (S l) 0xB5.

(** time.go:103-107: the sign, then append(dst, buf[l:]...). *)
Definition dur_sign (dst : bytes) (n : bool) (r : option (bytes * nat)) : option bytes :=
  do (b, l) <- r;
  if n then do (b', l') <- bpush b l 45; Some (dst ++ skipn l' b')
  else Some (dst ++ skipn l b).

(** time.go:43-108: appendDuration; the result is buf[l:] appended to dst.
    [None] is a run-time panic (index out of range). *)
Definition append_duration (dst : bytes) (d : Z) : option bytes :=
  let buf := repeat 0 32 in
  let l := 32%nat in
  let n := d <? 0 in
  let u := if n then wrap_u 64 (- wrap_u 64 d) else wrap_u 64 d in
  if u <? second then
    do (b, l) <- bpush buf l 115;
    if u =? 0 then Some (dst ++ [48; 115])
    else
      dur_sign dst n
       (do (b, l, prec) <-
          (if u <? microsecond then do (b', l') <- bpush b l 110; Some (b', l', 0%nat)
           else if u <? millisecond then
             match l with
             | S (S l2) => do b' <- copy_micro b l2; Some (b', l2, 3%nat)
             | _ => None
             end
           else do (b', l') <- bpush b l 109; Some (b', l', 6%nat));
        do (b, l, u) <- fmt_frac b l u prec;
        fmt_int b l u)
  else
    dur_sign dst n
     (do (b, l) <- bpush buf l 115;
      do (b, l, u) <- fmt_frac b l u 9;
      do (b, l) <- fmt_int b l (u mod 60);
      let u := u / 60 in
      if 0 <? u then
        do (b, l) <- bpush b l 109;
        do (b, l) <- fmt_int b l (u mod 60);
        let u := u / 60 in
        if 0 <? u then
          do (b, l) <- bpush b l 104;
          fmt_int b l u
        else Some (b, l)
      else Some (b, l)).
