(** encode.go:731-802: appendCompactJSON, with the code's indices [i] (range
    variable) and [at], and its two state flags. *)
From Verif Require Import Base EscapeModel.

(** encode.go:744: the HTML characters. *)
Definition is_html (c : Z) : bool := (c =? 60) || (c =? 62) || (c =? 38).

(** encode.go:771: the insignificant space characters. *)
Definition is_space (c : Z) : bool := (c =? 32) || (c =? 10) || (c =? 13) || (c =? 9).

(** encode.go:748-749, 760-761: the escapes written. *)
Definition html_esc (c : Z) : bytes := l_u00 ++ [hex_at (Z.shiftr c 4); hex_at (Z.land c 15)].
Definition sep_esc (c : Z) : bytes := l_u202 ++ [hex_at (Z.land c 15)].

(** encode.go:741-801: [n] iterations remain, the range variable is [i]. *)
Fixpoint compact_loop (n : nat) (escHTML : bool) (src : bytes) (i : nat) (inString skipNext : bool)
    (at0 : nat) (dst : bytes) : bytes :=
  match n with
  | O => if (at0 <? length src)%nat then dst ++ skipn at0 src else dst
  | S n' =>
    let c := at_ src i in
    if escHTML && is_html c then
      compact_loop n' escHTML src (S i) inString skipNext (S i) (flush dst src at0 i ++ html_esc c)
    else if (c =? 0xE2) && (i + 2 <? length src)%nat && (at_ src (i + 1) =? 0x80)
            && (Z.ldiff (at_ src (i + 2)) 1 =? 0xA8) then
      compact_loop n' escHTML src (S i) inString skipNext (i + 3)
        (flush dst src at0 i ++ sep_esc (at_ src (i + 2)))
    else if negb inString then
      if c =? 34 then compact_loop n' escHTML src (S i) true skipNext at0 dst
      else if is_space c then
        compact_loop n' escHTML src (S i) inString skipNext (S i) (flush dst src at0 i)
      else compact_loop n' escHTML src (S i) inString skipNext at0 dst
    else if skipNext then compact_loop n' escHTML src (S i) inString false at0 dst
    else if c =? 92 then compact_loop n' escHTML src (S i) inString true at0 dst
    else if c =? 34 then compact_loop n' escHTML src (S i) false skipNext at0 dst
    else compact_loop n' escHTML src (S i) inString skipNext at0 dst
  end.

(** encode.go:734-802: appendCompactJSON (its error result is always nil). *)
Definition appendCompactJSON (dst src : bytes) (escHTML : bool) : bytes :=
  compact_loop (length src) escHTML src 0 false false 0 dst.
