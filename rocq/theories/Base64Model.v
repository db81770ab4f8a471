(** encoding/base64.StdEncoding (standard library, Go 1.14), as used by
    encodeByteSlice (encode.go:293-300). *)
From Verif Require Import Base.

(** The alphabet A-Z a-z 0-9 + / *)
Definition b64_alphabet : bytes := Eval vm_compute in lit "ABCDEFGHIJKLMNOPQRSTUVWXYZabcdefghijklmnopqrstuvwxyz0123456789+/".
Definition b64_char (n : Z) : Z := nth (Z.to_nat n) b64_alphabet 0.

(** base64.Encoding.Encode: groups of three bytes as four 6-bit digits, the
    last group padded with '='. *)
Fixpoint base64 (b : bytes) : bytes :=
  match b with
  | x :: y :: z :: b' =>
    let v := Z.shiftl x 16 + Z.shiftl y 8 + z in
    b64_char (Z.land (Z.shiftr v 18) 63) :: b64_char (Z.land (Z.shiftr v 12) 63) ::
    b64_char (Z.land (Z.shiftr v 6) 63) :: b64_char (Z.land v 63) :: base64 b'
  | [x; y] =>
    let v := Z.shiftl x 16 + Z.shiftl y 8 in
    [b64_char (Z.land (Z.shiftr v 18) 63); b64_char (Z.land (Z.shiftr v 12) 63); b64_char (Z.land (Z.shiftr v 6) 63); 61]
  | [x] =>
    let v := Z.shiftl x 16 in
    [b64_char (Z.land (Z.shiftr v 18) 63); b64_char (Z.land (Z.shiftr v 12) 63); 61; 61]
  | [] => []
  end.

(** base64.Encoding.EncodedLen *)
Definition b64_len (n : Z) : Z := Z.quot (n + 2) 3 * 4.
