(** Specification of JSON texts (RFC 8259), independent of the encoder.

    A JSON string denotes a sequence of UTF-16 code units (RFC 8259 section 7
    and 8.2 allow lone surrogates in \u escapes).  The flag [lax] adds one
    deviation used only to describe the output produced under
    NoUTF8Coercion: a byte that does not begin a UTF-8 encoding may stand for
    itself ([Raw]). *)
From Verif Require Import Base Utf8.

(** ** Numbers: RFC 8259 section 6 *)
Definition digit (b : Z) : Prop := 48 <= b <= 57.
Definition digits1 (s : bytes) : Prop := s <> [] /\ Forall digit s.

(** int = zero / ( digit1-9 *DIGIT ) *)
Inductive jint : bytes -> Prop :=
| jint_zero : jint [48]
| jint_pos d ds : 49 <= d <= 57 -> Forall digit ds -> jint (d :: ds).

(** frac = decimal-point 1*DIGIT, optional *)
Inductive jfrac : bytes -> Prop :=
| jfrac_none : jfrac []
| jfrac_some ds : digits1 ds -> jfrac (46 :: ds).

(** exp = e [ minus / plus ] 1*DIGIT, optional *)
Inductive jexp : bytes -> Prop :=
| jexp_none : jexp []
| jexp_some e sg ds : e = 101 \/ e = 69 -> sg = [] \/ sg = [43] \/ sg = [45] -> digits1 ds ->
    jexp (e :: sg ++ ds).

(** number = [ minus ] int [ frac ] [ exp ] *)
Definition jnumber (s : bytes) : Prop :=
  exists m i f e, s = m ++ i ++ f ++ e /\ (m = [] \/ m = [45]) /\ jint i /\ jfrac f /\ jexp e.

(** ** Strings: RFC 8259 section 7 *)
Inductive cu := U16 (z : Z) | Raw (b : Z).

Definition utf16 (r : Z) : list cu :=
  if r <? 0x10000 then [U16 r]
  else [U16 (0xD800 + (r - 0x10000) / 1024); U16 (0xDC00 + (r - 0x10000) mod 1024)].

Definition hexval (h : Z) : option Z :=
  if (48 <=? h) && (h <=? 57) then Some (h - 48)
  else if (97 <=? h) && (h <=? 102) then Some (h - 87)
  else if (65 <=? h) && (h <=? 70) then Some (h - 55)
  else None.

(** The two-character escapes. *)
Definition esc2 (c : Z) : option Z :=
  if c =? 34 then Some 34 else if c =? 92 then Some 92 else if c =? 47 then Some 47
  else if c =? 98 then Some 8 else if c =? 102 then Some 12 else if c =? 110 then Some 10
  else if c =? 114 then Some 13 else if c =? 116 then Some 9 else None.

(** [jchars lax us s]: s is the inside of a JSON string denoting us. *)
Inductive jchars (lax : bool) : list cu -> bytes -> Prop :=
| jc_nil : jchars lax [] []
| jc_rune r us s : scalar r -> 0x20 <= r -> r <> 34 -> r <> 92 ->
    jchars lax us s -> jchars lax (utf16 r ++ us) (utf8 r ++ s)
| jc_esc2 c u us s : esc2 c = Some u ->
    jchars lax us s -> jchars lax (U16 u :: us) (92 :: c :: s)
| jc_hex h1 h2 h3 h4 a b c d us s :
    hexval h1 = Some a -> hexval h2 = Some b -> hexval h3 = Some c -> hexval h4 = Some d ->
    jchars lax us s ->
    jchars lax (U16 (a * 4096 + b * 256 + c * 16 + d) :: us) (92 :: 117 :: h1 :: h2 :: h3 :: h4 :: s)
| jc_raw b us s : lax = true -> is_byte b -> no_rune (b :: s) ->
    jchars lax us s -> jchars lax (Raw b :: us) (b :: s).

(** ** Values: RFC 8259 sections 2-5 *)
Inductive jval :=
| JNull
| JBool (b : bool)
| JNum (l : bytes)
| JStr (us : list cu)
| JArr (vs : list jval)
| JObj (ms : list (list cu * jval)).

Definition l_null : bytes := Eval vm_compute in lit "null".
Definition l_true : bytes := Eval vm_compute in lit "true".
Definition l_false : bytes := Eval vm_compute in lit "false".

(** ws = *( space / tab / LF / CR ) *)
Definition ws_char (b : Z) : bool := (b =? 32) || (b =? 9) || (b =? 10) || (b =? 13).
Definition ws (w : bytes) : Prop := Forall (fun b => ws_char b = true) w.
Definition no_ws (w : bytes) : Prop := w = [].

(** [json W lax v s]: s is a JSON text (without outer whitespace) for v, where
    insignificant whitespace is restricted to W. *)
Inductive json (W : bytes -> Prop) (lax : bool) : jval -> bytes -> Prop :=
| j_null : json W lax JNull l_null
| j_true : json W lax (JBool true) l_true
| j_false : json W lax (JBool false) l_false
| j_num l : jnumber l -> json W lax (JNum l) l
| j_str us s : jchars lax us s -> json W lax (JStr us) (34 :: s ++ [34])
| j_arr0 w : W w -> json W lax (JArr []) (91 :: w ++ [93])
| j_arr vs s : jelems W lax vs s -> json W lax (JArr vs) (91 :: s ++ [93])
| j_obj0 w : W w -> json W lax (JObj []) (123 :: w ++ [125])
| j_obj ms s : jmembers W lax ms s -> json W lax (JObj ms) (123 :: s ++ [125])
with jelems (W : bytes -> Prop) (lax : bool) : list jval -> bytes -> Prop :=
| je_one w1 v s w2 : W w1 -> json W lax v s -> W w2 -> jelems W lax [v] (w1 ++ s ++ w2)
| je_cons w1 v s w2 vs t : W w1 -> json W lax v s -> W w2 -> jelems W lax vs t ->
    jelems W lax (v :: vs) (w1 ++ s ++ w2 ++ 44 :: t)
with jmembers (W : bytes -> Prop) (lax : bool) : list (list cu * jval) -> bytes -> Prop :=
| jm_one w1 k ks w2 w3 v s w4 : W w1 -> jchars lax k ks -> W w2 -> W w3 -> json W lax v s -> W w4 ->
    jmembers W lax [(k, v)] (w1 ++ 34 :: ks ++ 34 :: w2 ++ 58 :: w3 ++ s ++ w4)
| jm_cons w1 k ks w2 w3 v s w4 ms t : W w1 -> jchars lax k ks -> W w2 -> W w3 -> json W lax v s -> W w4 ->
    jmembers W lax ms t ->
    jmembers W lax ((k, v) :: ms) (w1 ++ 34 :: ks ++ 34 :: w2 ++ 58 :: w3 ++ s ++ w4 ++ 44 :: t).

Scheme json_mut := Induction for json Sort Prop
  with jelems_mut := Induction for jelems Sort Prop
  with jmembers_mut := Induction for jmembers Sort Prop.
Combined Scheme json_mutind from json_mut, jelems_mut, jmembers_mut.

(** A JSON text: value surrounded by whitespace. *)
Definition json_text (lax : bool) (v : jval) (s : bytes) : Prop :=
  exists w1 t w2, s = w1 ++ t ++ w2 /\ ws w1 /\ ws w2 /\ json ws lax v t.

Definition valid_json (s : bytes) : Prop := exists v, json_text false v s.

(** Strict, whitespace-free JSON: what Marshal is expected to produce. *)
Definition cjson (v : jval) (s : bytes) : Prop := json no_ws false v s.

Lemma no_ws_ws w : no_ws w -> ws w.
Proof. unfold no_ws. intros ->. constructor. Qed.

Lemma json_weaken_mut (W W' : bytes -> Prop) lax (HW : forall w, W w -> W' w) :
  (forall v s, json W lax v s -> json W' lax v s) /\
  (forall vs s, jelems W lax vs s -> jelems W' lax vs s) /\
  (forall ms s, jmembers W lax ms s -> jmembers W' lax ms s).
Proof. apply json_mutind; intros; econstructor; eauto. Qed.

(** Whitespace-free JSON is JSON. *)
Lemma cjson_text v s : cjson v s -> json_text false v s.
Proof.
  intros H. exists [], s, []. rewrite app_nil_r. repeat split; try constructor.
  eapply json_weaken_mut; [|exact H]. exact no_ws_ws.
Qed.

Lemma jchars_lax us s : jchars false us s -> jchars true us s.
Proof.
  induction 1; try discriminate.
  - constructor.
  - apply jc_rune; auto.
  - eapply jc_esc2; eauto.
  - eapply jc_hex; eauto.
Qed.

Lemma jchars_app lax us1 s1 us2 s2 : jchars lax us1 s1 -> jchars lax us2 s2 ->
  lax = false -> jchars lax (us1 ++ us2) (s1 ++ s2).
Proof.
  intros H1 H2 ->. induction H1; simpl; auto; try discriminate.
  - rewrite <- !app_assoc. constructor; auto.
  - eapply jc_esc2; eauto.
  - eapply jc_hex; eauto.
Qed.
