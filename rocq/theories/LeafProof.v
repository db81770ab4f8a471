(** Facts about the scalar encoders, in the vocabulary of JsonSpec.v. *)
From Verif Require Import Base Utf8 JsonSpec OptionsModel NumberModel NumberProof EscapeModel EscapeProof JsonParse
  CompactModel CompactProof IntModel IntProof TypesModel FloatModel FloatProof DurationModel DurationProof TimeModel TimeProof LeafModel.

(** ** Strings *)

(** The code units a string is expected to denote: those of its runes, bytes
    outside any rune being replaced by U+FFFD. *)
Definition coerced_units (u : Z + Z) : list cu := match u with inl r => utf16 r | inr _ => [U16 0xFFFD] end.
(** The same when bytes outside any rune are kept. *)
Definition kept_units (u : Z + Z) : list cu := match u with inl r => utf16 r | inr b => [Raw b] end.

(** The string [s] as a JSON value: the decoding of its bytes. *)
Definition string_units (s : bytes) (us : list cu) : Prop :=
  exists segs, segments s segs /\ us = flat_map coerced_units segs.

Lemma string_units_total s : bytes_ok s -> exists us, string_units s us.
Proof. intros H. destruct (segments_total s H) as (segs & Hs). eexists; exists segs; eauto. Qed.

Lemma string_units_det s u1 u2 : string_units s u1 -> string_units s u2 -> u1 = u2.
Proof. intros (s1 & H1 & ->) (s2 & H2 & ->). rewrite (segments_det _ _ _ H1 H2). reflexivity. Qed.

Lemma string_units_valid s rs : utf8_string s rs -> string_units s (flat_map utf16 rs).
Proof.
  intros H. exists (map inl rs). split; [apply valid_utf8_segments; assumption|].
  clear H. induction rs as [|r rs IH]; cbn; [reflexivity | f_equal; exact IH].
Qed.

Definition esc_on (o : encOpts) : Prop :=
  has (o_flags o) noStringEscaping = false /\ has (o_flags o) noUTF8Coercion = false.

Lemma encode_string_app dst s o : bytes_ok s -> encode_string dst s o = dst ++ encode_string [] s o.
Proof.
  intros H. unfold encode_string. rewrite !appendEscapedBytes_app by assumption.
  cbn [app]. rewrite <- !app_assoc. reflexivity.
Qed.

Lemma encode_string_body s o : bytes_ok s -> encode_string [] s o = 34 :: escaped o s ++ [34].
Proof. intros H. unfold encode_string. rewrite appendEscapedBytes_app by assumption. reflexivity. Qed.

Lemma seg_units_false u : seg_units false u = coerced_units u.
Proof. destruct u; reflexivity. Qed.
Lemma seg_units_true u : seg_units true u = kept_units u.
Proof. destruct u; reflexivity. Qed.

Lemma escaped_string_units s o us : bytes_ok s -> esc_on o -> string_units s us -> jchars false us (escaped o s).
Proof.
  intros Hb [H1 H2] (segs & Hs & ->). rewrite (escaped_segments o s segs Hb Hs H1), H2.
  rewrite (flat_map_ext _ _ (fun u => eq_sym (seg_units_false u))). apply (escaped_jchars false _ s segs Hb Hs).
Qed.

Lemma encode_string_json s o us : bytes_ok s -> esc_on o -> string_units s us ->
  cjson (JStr us) (encode_string [] s o).
Proof. intros Hb Ho Hu. rewrite encode_string_body by assumption. constructor. apply escaped_string_units; assumption. Qed.

Lemma encode_string_runes s o : bytes_ok s -> esc_on o ->
  exists rs, utf8_string (encode_string [] s o) rs /\
    Forall (fun r => 0x20 <= r /\ r <> 0x2028 /\ r <> 0x2029 /\ (has (o_flags o) noHTMLEscaping = false -> r <> 60 /\ r <> 62 /\ r <> 38)) rs.
Proof.
  intros Hb [H1 H2]. destruct (segments_total s Hb) as (segs & Hs).
  rewrite encode_string_body by assumption. rewrite (escaped_segments o s segs Hb Hs H1), H2.
  destruct (escaped_runes (has (o_flags o) noHTMLEscaping) s segs Hb Hs) as (rs & Hr & Ho).
  exists (34 :: rs ++ [34]). split.
  - change (34 :: ?x ++ [34]) with (utf8 34 ++ x ++ [34]). constructor; [unfold scalar; lia|].
    apply utf8_string_app; [assumption|]. change [34] with (utf8 34 ++ []). constructor; [unfold scalar; lia | constructor].
  - constructor; [lia|]. apply Forall_app. split; [|constructor; [lia | constructor]].
    eapply Forall_impl; [|exact Ho]. unfold out_rune. intros r (_ & A & B & C).
    destruct (C eq_refl). split; [assumption|]. split; [assumption|]. split; [assumption|]. exact B.
Qed.

(** No rune of [rs] has an ASCII byte b: b is absent from the bytes. *)
Lemma utf8_string_no_byte s rs b : 0 <= b < 0x80 -> utf8_string s rs -> ~ In b rs -> ~ In b s.
Proof.
  intros Hb. induction 1 as [|r s rs Hr _ IH]; [auto|]. intros Hn. rewrite in_app_iff. intros [Hi|Hi].
  - destruct (Z_lt_le_dec r 0x80) as [L|L].
    + assert (0 <= r) by (unfold scalar in Hr; lia). rewrite utf8_ascii in Hi by lia. destruct Hi as [->|[]]. apply Hn. left. reflexivity.
    + pose proof (utf8_high r Hr L) as F. rewrite Forall_forall in F. apply F in Hi. lia.
  - apply IH; [|assumption]. intros X. apply Hn. right. assumption.
Qed.

(** ** Floats: the oracle used in examples. *)
Definition shortest_one : bool -> positive -> Z -> bytes * Z := fun _ _ _ => ([49; 53], 1).
