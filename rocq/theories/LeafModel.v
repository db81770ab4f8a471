(** Encoders of scalar values, on the value read from memory. *)
From Verif Require Import Base Utf8 JsonSpec OptionsModel NumberModel EscapeModel CompactModel JsonParse IntModel TypesModel
  FloatModel DurationModel TimeModel.

(** encode.go:24-29: encodeBool. *)
Definition encode_bool (b : bool) (dst : bytes) : bytes := dst ++ (if b then l_true else l_false).

(** encode.go:76-92: encodeNumber. *)
Definition encode_number (num : bytes) (dst : bytes) (o : encOpts) : res :=
  let num := match num with [] => [48] | _ => num end in
  if negb (has (o_flags o) noNumberValidation) && negb (is_valid_number num)
  then Ret dst (Some (EInvalidNumber num))
  else Ret (dst ++ num) None.

(** encode.go:94-103: encodeRawMessage; [None] is the nil slice. *)
Definition encode_raw_message (v : option bytes) (dst : bytes) (o : encOpts) : res :=
  match v with
  | None => Ret (dst ++ l_null) None
  | Some v =>
    if has (o_flags o) noCompact then Ret (dst ++ v) None
    else Ret (appendCompactJSON dst v (negb (has (o_flags o) noHTMLEscaping))) None
  end.

(** encode.go:133-153: encodeDuration.  [to_float unit d] is d.Minutes()
    (unit 60s) or d.Seconds() (unit 1s), a float64 computed by package time
    (a parameter). *)
Definition encode_duration (shortest : bool -> positive -> Z -> bytes * Z) (to_float : bool -> Z -> fval)
    (d : Z) (dst : bytes) (o : encOpts) : res :=
  let f := o_durationFmt o in
  if f =? DurationMinutes then appendFloat shortest dst (to_float true d) true
  else if f =? DurationSeconds then appendFloat shortest dst (to_float false d) true
  else if f =? DurationMicroseconds then Ret (append_int dst (Z.quot d 1000)) None
  else if f =? DurationMilliseconds then Ret (append_int dst (Z.quot d 1000000)) None
  else if f =? DurationString then
    match append_duration (dst ++ [34]) d with
    | Some r => Ret (r ++ [34]) None
    | None => Crash
    end
  else Ret (append_int dst d) None.

(** encode.go:699-717: encodeJSONMarshaler, after the call to MarshalJSON
    which returned [r] (bytes or an error). *)
Definition encode_json_result (t : typ) (r : bytes + Z) (dst : bytes) (o : encOpts) : res :=
  match r with
  | inr e => Ret dst (Some (EMarshaler t MJson (IUser e)))
  | inl b =>
    if has (o_flags o) noCompact then Ret (dst ++ b) None
    else if negb (json_valid b) then Ret dst (Some (EMarshaler t MJson ISyntax))
    else Ret (appendCompactJSON dst b (negb (has (o_flags o) noHTMLEscaping))) None
  end.

(** encode.go:719-729: encodeTextMarshaler, after the call to MarshalText. *)
Definition encode_text_result (t : typ) (r : bytes + Z) (dst : bytes) (o : encOpts) : res :=
  match r with
  | inr e => Ret dst (Some (EMarshaler t MText (IUser e)))
  | inl b => Ret (dst ++ [34] ++ b ++ [34]) None
  end.
