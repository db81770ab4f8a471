(** The texts of errors (json.go:29-105) and of duration formats
    (time.go:21-38).

    fmt.Sprintf is modelled by concatenation.  What the texts are made of comes
    from outside: the name of a type (reflect.Type.String), the text of an error
    returned by a user method (its Error method) and the %q form of a string
    (strconv.Quote). *)
From Verif Require Import Base OptionsModel IntModel TypesModel.

Record texts := mkTexts { tx_type : typ -> bytes; tx_user : Z -> bytes; tx_quote : bytes -> bytes }.

(** time.go:23-38: DurationFmt.String and durationFmtStr. *)
Definition durationFmtStr : list bytes := [lit "str"; lit "min"; lit "s"; lit "ms"; lit "μs"; lit "nanosecond"].
Definition fmt_string (f : Z) : bytes := if negb (dur_valid f) then lit "unknown" else nth (Z.to_nat f) durationFmtStr [].

(** json.go:29-34 *)
Definition method_name (k : mkind) : bytes :=
  match k with
  | MJson => lit "MarshalJSON"
  | MText => lit "MarshalText"
  | MCtx => lit "AppendJSONContext"
  | MApp => lit "AppendJSON"
  end.

(** options.go:67-78 *)
Definition option_text (e : oerr) : bytes :=
  match e with
  | NilContext => lit "nil context"
  | EmptyLayout => lit "empty time layout"
  | UnknownFormat => lit "unknown duration format"
  end.

(** json.go:93 and encode.go:712-714: SyntaxError. *)
Definition inner_text (X : texts) (e : inner) : bytes :=
  match e with IUser e => tx_user X e | ISyntax => lit "json: invalid value" end.

(** The Error methods (json.go:45-48, 67-69, 80-82, 103-105) and the errors made
    by errors.New and fmt.Errorf (encode.go:89, 113, 593, 602). *)
Definition error_text (X : texts) (e : gerr) : bytes :=
  match e with
  | EYear => lit "time: year outside of range [0,9999]"
  | EUnsupportedValue s => lit "json: unsupported value: " ++ s
  | EInvalidNumber s => lit "json: invalid number literal " ++ tx_quote X s
  | EUnsupportedType t => lit "json: unsupported type: " ++ tx_type X t
  | EMarshaler t k e => lit "json: error calling " ++ method_name k ++ lit " for type " ++ tx_type X t ++ lit ": " ++ inner_text X e
  | ENilKey => lit "unsupported nil key in sync.Map"
  | EKeyType t => lit "unsupported key of type " ++ tx_type X t ++ lit " in sync.Map"
  | EInvalidOption e => lit "json: invalid option: " ++ option_text e
  end.

(** errors.Unwrap: only MarshalerError has an Unwrap method (json.go:54-56);
    InvalidOptionError has none. *)
Definition unwrap (e : gerr) : option inner := match e with EMarshaler _ _ e => Some e | _ => None end.
