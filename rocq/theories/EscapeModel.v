(** encode.go:804-895: appendEscapedBytes.  The loop keeps the code's indices:
    [i], the read position, and [at], the start of the bytes not yet copied.
    [None] is "out of fuel", excluded for the fuel used. *)
From Verif Require Import Base Utf8 OptionsModel.

(** encode.go:21: const hex. *)
Definition hex : bytes := Eval vm_compute in lit "0123456789abcdef".
Definition hex_at (i : Z) : Z := nth (Z.to_nat i) hex 0.

Definition l_u00 : bytes := Eval vm_compute in lit "\u00".
Definition l_ufffd : bytes := [92; 117; 102; 102; 102; 100]. (* backslash u f f f d *)
Definition l_u202 : bytes := Eval vm_compute in lit "\u202".

(** encode.go:828-831: "if at < i { dst = append(dst, b[at:i]...) }" *)
Definition flush (dst b : bytes) (at0 i : nat) : bytes :=
  if (at0 <? i)%nat then dst ++ sub b at0 i else dst.

(** encode.go:820: the ASCII bytes copied as they are. *)
Definition plain (noEscape : bool) (c : Z) : bool :=
  (32 <=? c) && negb (c =? 92) && negb (c =? 34) &&
  (noEscape || (negb (c =? 60) && negb (c =? 62) && negb (c =? 38))).

(** encode.go:836-849: the switch on an escaped ASCII byte. *)
Definition esc_ascii (c : Z) : bytes :=
  if (c =? 34) || (c =? 92) then [92; c]
  else if c =? 10 then [92; 110]
  else if c =? 13 then [92; 114]
  else if c =? 9 then [92; 116]
  else l_u00 ++ [hex_at (Z.shiftr c 4); hex_at (Z.land c 15)].

(** encode.go:815-894: the loop and the final copy. *)
Fixpoint esc_loop (fuel : nat) (noCoerce noEscape : bool) (b : bytes) (i at0 : nat) (dst : bytes) : option bytes :=
  match fuel with
  | O => None
  | S fuel' =>
    if (i <? length b)%nat then
      let c := at_ b i in
      if c <? 0x80 then
        if plain noEscape c then esc_loop fuel' noCoerce noEscape b (S i) at0 dst
        else esc_loop fuel' noCoerce noEscape b (S i) (S i) (flush dst b at0 i ++ esc_ascii c)
      else
        let '(r, size) := decode_rune (skipn i b) in
        if negb noCoerce then
          if (r =? rune_error) && (size =? 1)%nat then
            esc_loop fuel' noCoerce noEscape b (i + size) (i + size) (flush dst b at0 i ++ l_ufffd)
          else if (r =? 0x2028) || (r =? 0x2029) then
            esc_loop fuel' noCoerce noEscape b (i + size) (i + size)
              (flush dst b at0 i ++ l_u202 ++ [hex_at (Z.land r 15)])
          else esc_loop fuel' noCoerce noEscape b (i + size) at0 dst
        else esc_loop fuel' noCoerce noEscape b (i + size) at0 dst
    else Some (if (at0 <? length b)%nat then dst ++ skipn at0 b else dst)
  end.

(** encode.go:804-895: appendEscapedBytes. *)
Definition appendEscapedBytes_opt (dst b : bytes) (o : encOpts) : option bytes :=
  if has (o_flags o) noStringEscaping then Some (dst ++ b)
  else esc_loop (S (length b)) (has (o_flags o) noUTF8Coercion) (has (o_flags o) noHTMLEscaping) b 0 0 dst.

(** Total version; [esc_loop_total] (EscapeProof.v) shows the default is never used. *)
Definition appendEscapedBytes (dst b : bytes) (o : encOpts) : bytes :=
  match appendEscapedBytes_opt dst b o with Some r => r | None => dst end.

(** encode.go:36-42: encodeString (on the string's content). *)
Definition encode_string (dst s : bytes) (o : encOpts) : bytes :=
  appendEscapedBytes (dst ++ [34]) s o ++ [34].

Definition l_qbq : bytes := Eval vm_compute in [34; 92; 34].
Definition l_bqq : bytes := Eval vm_compute in [92; 34; 34].

(** encode.go:45-51: encodeQuotedString. *)
Definition encode_quoted_string (dst s : bytes) (o : encOpts) : bytes :=
  appendEscapedBytes (dst ++ l_qbq) s o ++ l_bqq.
