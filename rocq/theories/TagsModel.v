(** tags.go and the field-name part of struct.go. *)
From Verif Require Import Base Utf8 EscapeModel CompactModel.

(** tags.go:11-16: strings.Index(tag, ",") splits off the name, strings.Split
    the rest. *)
Fixpoint split_comma (s : bytes) : list bytes :=
  match s with
  | [] => [[]]
  | c :: s' =>
    if c =? 44 then [] :: split_comma s'
    else match split_comma s' with
         | [] => [[c]]
         | w :: ws => (c :: w) :: ws
         end
  end.

Fixpoint index_comma (s : bytes) : option nat :=
  match s with
  | [] => None
  | c :: s' => if c =? 44 then Some O else match index_comma s' with Some n => Some (S n) | None => None end
  end.

Definition parse_tag (tag : bytes) : bytes * list bytes :=
  match index_comma tag with
  | Some i => (firstn i tag, split_comma (skipn (i + 1) tag))
  | None => (tag, [])
  end.

(** tags.go:20-30: Contains. *)
Definition tag_contains (opts : list bytes) (name : bytes) : bool := existsb (fun o => bytes_eqb o name) opts.

(** struct.go:13: validChars. *)
Definition valid_chars : bytes := Eval vm_compute in lit "!#$%&()*+-./:<=>?@[]^_{|}~ ".

(** struct.go:154-169: isValidFieldName.  [letter] and [udigit] stand for
    unicode.IsLetter and unicode.IsDigit.  The range loop over the string
    yields U+FFFD for a byte outside any encoding. *)
Fixpoint name_loop (letter udigit : Z -> bool) (fuel : nat) (s : bytes) : bool :=
  match fuel with
  | O => false
  | S f =>
    match s with
    | [] => true
    | _ =>
      let '(c, size) := decode_rune s in
      if existsb (Z.eqb c) valid_chars then name_loop letter udigit f (skipn size s)
      else if negb (letter c) && negb (udigit c) then false
      else name_loop letter udigit f (skipn size s)
    end
  end.

Definition is_valid_field_name (letter udigit : Z -> bool) (s : bytes) : bool :=
  match s with [] => false | _ => name_loop letter udigit (S (length s)) s end.

(** json.HTMLEscape (encoding/json, used at struct.go:270). *)
Fixpoint html_escape (s : bytes) : bytes :=
  match s with
  | [] => []
  | c :: s' =>
    if is_html c then html_esc c ++ html_escape s'
    else match s' with
         | b1 :: b2 :: s'' =>
           if (c =? 0xE2) && (b1 =? 0x80) && (Z.ldiff b2 1 =? 0xA8) then sep_esc b2 ++ html_escape s''
           else c :: html_escape s'
         | _ => c :: html_escape s'
         end
  end.

(** struct.go:267-271 and 281-282: the two forms of a field key. *)
Definition key_esc (name : bytes) : bytes := 34 :: html_escape name ++ [34; 58].
Definition key_raw (name : bytes) : bytes := 34 :: name ++ [34; 58].
