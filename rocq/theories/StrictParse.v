(** Strict JSON texts can be recognised: a text read with the lax rules is
    strict when no string has a raw byte. *)
From Verif Require Import Base Utf8 JsonSpec JsonParse DocLeaf.

Definition no_raw_unit (u : cu) : bool := match u with U16 _ => true | Raw _ => false end.
Fixpoint no_raw (v : jval) : bool :=
  match v with
  | JStr us => forallb no_raw_unit us
  | JArr vs => (fix go (l : list jval) := match l with [] => true | x :: l' => no_raw x && go l' end) vs
  | JObj ms => (fix go (l : list (list cu * jval)) := match l with [] => true | (k, x) :: l' => forallb no_raw_unit k && no_raw x && go l' end) ms
  | _ => true
  end.

Lemma no_raw_chars us s : jchars true us s -> forallb no_raw_unit us = true -> jchars false us s.
Proof.
  induction 1 as [|r us s Hr H1 H2 H3 _ IH|c u us s He _ IH|h1 h2 h3 h4 a b c d us s A B C D _ IH|b us s _ Hb Hn _ IH]; cbn [forallb]; intros Hf.
  - constructor.
  - rewrite forallb_app in Hf. apply andb_prop in Hf. destruct Hf. apply jc_rune; auto.
  - apply jc_esc2; auto.
  - apply jc_hex; auto.
  - discriminate.
Qed.

Lemma no_raw_json W :
  (forall v s, json W true v s -> no_raw v = true -> json W false v s) /\
  (forall vs s, jelems W true vs s -> no_raw (JArr vs) = true -> jelems W false vs s) /\
  (forall ms s, jmembers W true ms s -> no_raw (JObj ms) = true -> jmembers W false ms s).
Proof.
  apply json_mutind; try (intros; constructor; auto; fail).
  - intros us s Hc Hn. constructor. apply no_raw_chars; assumption.
  - intros w1 v s w2 H1 _ IH H2 Hn. cbn [no_raw] in Hn. apply andb_prop in Hn. destruct Hn. constructor; auto.
  - intros w1 v s w2 vs t H1 _ IH H2 _ IHs Hn. cbn [no_raw] in Hn. apply andb_prop in Hn. destruct Hn. constructor; auto.
  - intros w1 k ks w2 w3 v s w4 H1 Hk H2 H3 _ IH H4 Hn. cbn [no_raw] in Hn. apply andb_prop in Hn. destruct Hn as [Hn _]. apply andb_prop in Hn. destruct Hn. constructor; auto. apply no_raw_chars; assumption.
  - intros w1 k ks w2 w3 v s w4 ms t H1 Hk H2 H3 _ IH H4 _ IHs Hn. cbn [no_raw] in Hn. apply andb_prop in Hn. destruct Hn as [Hn Hn2]. apply andb_prop in Hn. destruct Hn. constructor; auto. apply no_raw_chars; assumption.
Qed.

(** The value of a strict JSON text. *)
Definition parse_strict (s : bytes) : option jval := match parse_json s with Some v => if no_raw v then Some v else None | None => None end.

Lemma parse_strict_text s v : bytes_ok s -> parse_strict s = Some v -> json_text false v s.
Proof.
  intros Hb. unfold parse_strict. destruct (parse_json s) as [v'|] eqn:E; [|discriminate]. destruct (no_raw v') eqn:En; [|discriminate]. intros [= <-].
  apply (parse_json_correct s v' Hb) in E. destruct E as (w1 & t & w2 & -> & A & B & C). exists w1, t, w2. repeat split; auto. apply no_raw_json; assumption.
Qed.

Lemma raw_chars_strict us s : jchars false us s -> forallb no_raw_unit us = true.
Proof.
  induction 1 as [|r us s Hr H1 H2 H3 _ IH|c u us s He _ IH|h1 h2 h3 h4 a b c d us s A B C D _ IH|b us s Hl Hb Hn _ IH]; cbn [forallb]; auto; try discriminate.
  rewrite forallb_app, IH. unfold utf16. destruct (r <? 0x10000); reflexivity.
Qed.
Lemma strict_no_raw W :
  (forall v s, json W false v s -> no_raw v = true) /\
  (forall vs s, jelems W false vs s -> no_raw (JArr vs) = true) /\
  (forall ms s, jmembers W false ms s -> no_raw (JObj ms) = true).
Proof.
  apply json_mutind; try reflexivity; try (intros; assumption).
  - intros us s Hc. exact (raw_chars_strict us s Hc).
  - intros w1 v s w2 H1 _ IH H2. cbn [no_raw]. rewrite IH. reflexivity.
  - intros w1 v s w2 vs t H1 _ IH H2 _ IHs. cbn [no_raw] in *. rewrite IH, IHs. reflexivity.
  - intros w1 k ks w2 w3 v s w4 H1 Hk H2 H3 _ IH H4. cbn [no_raw]. rewrite IH, (raw_chars_strict _ _ Hk). reflexivity.
  - intros w1 k ks w2 w3 v s w4 ms t H1 Hk H2 H3 _ IH H4 _ IHs. cbn [no_raw] in *. rewrite IH, IHs, (raw_chars_strict _ _ Hk). reflexivity.
Qed.

Theorem parse_strict_correct s v : bytes_ok s -> (parse_strict s = Some v <-> json_text false v s).
Proof.
  intros Hb. split; [apply parse_strict_text; exact Hb|]. intros Hj. unfold parse_strict.
  assert (A := proj2 (parse_json_correct s v Hb) (json_text_of_lax _ _ _ Hj)). rewrite A.
  destruct Hj as (w1 & t & w2 & _ & _ & _ & Hj). apply strict_no_raw in Hj. rewrite Hj. reflexivity.
Qed.
