(** number.go: isValidNumber. *)
From Verif Require Import Base.

(** '0' <= s[0] && s[0] <= '9' *)
Definition is_digit (b : Z) : bool := (48 <=? b) && (b <=? 57).

(** number.go:27-29, 34-36, 48-50: the loop dropping leading digits. *)
Fixpoint drop_digits (s : bytes) : bytes :=
  match s with
  | c :: s' => if is_digit c then drop_digits s' else s
  | [] => []
  end.

(** number.go:32-37: dot followed by one or more digits. *)
Definition num_frac (s : bytes) : bytes :=
  match s with
  | c :: d :: s' => if (c =? 46) && is_digit d then drop_digits s' else s
  | _ => s
  end.

(** number.go:40-51: exponent; None is the early "return false". *)
Definition num_exp (s : bytes) : option bytes :=
  match s with
  | c :: d :: s' =>
    if (c =? 101) || (c =? 69) then
      if (d =? 43) || (d =? 45) then
        match s' with [] => None | _ => Some (drop_digits s') end
      else Some (drop_digits (d :: s'))
    else Some s
  | _ => Some s
  end.

(** number.go:38-53: from the fraction on. *)
Definition num_tail (s : bytes) : bool :=
  match num_exp (num_frac s) with
  | None => false
  | Some [] => true
  | Some (_ :: _) => false
  end.

(** number.go:20-30: the digits switch on a non-empty s. *)
Definition num_int (s : bytes) : bool :=
  match s with
  | [] => false
  | c :: s' =>
    if c =? 48 then num_tail s'
    else if (49 <=? c) && (c <=? 57) then num_tail (drop_digits s')
    else false
  end.

(** number.go:5-54: isValidNumber.  (The empty remainder after '-' is rejected
    by [num_int []], as at number.go:15-17.) *)
Definition is_valid_number (s : bytes) : bool :=
  match s with
  | [] => false
  | c :: s' => if c =? 45 then num_int s' else num_int s
  end.
