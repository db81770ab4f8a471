(** Calls to Marshal on values whose parts are all readable. *)
From Coq Require Import Permutation Sorted.
From Verif Require Import Base Utf8 JsonSpec OptionsModel TypesModel TypesFacts MemModel FieldsModel FieldsProof InstrModel ExecModel ValueModel
  ExecProof VencFacts MarshalThm DocSpec EntriesFacts PartFacts DocProof SafeProof ApiFacts PartsThm ShapeThm.

(** Memory m holds v, of type t, behind the interface word w; the options are
    accepted; no part of v is one of those the code misreads (SafeProof). *)
Record call (H : host) (m : mem) (t : typ) (w : Z) (v : val) (opts : list (option option_)) (o : encOpts) : Prop := {
  c_holds : holds H m t w v;
  c_opts : call_opts opts = Some o;
  c_dyn : dyn_ok H t;
  c_readable : all_readable H o (t, is_ptr H t, false, v)
}.

Section Call.
  Variable H : host.
  Variable vcall : mkind -> typ -> val -> option Z -> bytes + Z.
  Hypothesis OK : host_ok H vcall.
  Variables (m : mem) (t : typ) (w : Z) (v : val) (opts : list (option option_)) (o : encOpts).
  Hypothesis C : call H m t w v opts o.
  Notation top := (t, is_ptr H t, false, v).

  Lemma call_held : held H m top.
  Proof. apply (holds_held H vcall OK m t w v). apply C. Qed.

  Theorem call_returns : exists out err, encodes H vcall o t v out err /\ forall r, marshal_returns H m (Some (t, w)) opts r <-> r = outcome out err.
  Proof.
    destruct (readable_returns H vcall OK m t w v opts o (c_holds _ _ _ _ _ _ _ C) (c_opts _ _ _ _ _ _ _ C) (c_dyn _ _ _ _ _ _ _ C) (c_readable _ _ _ _ _ _ _ C)) as (out & err & A & _).
    exists out, err. split; [exact A|]. intros r. apply (marshal_iff H vcall OK m t w v opts o out err r); [apply C | apply C | exact A].
  Qed.

  Theorem call_ok out : marshal_returns H m (Some (t, w)) opts (MOk out) <-> encodes H vcall o t v out None.
  Proof.
    destruct call_returns as (out' & err & A & B). split.
    - intros R. apply B in R. destruct err; [discriminate|]. injection R as ->. exact A.
    - intros En. apply (marshal_iff H vcall OK m t w v opts o out None (MOk out)); [apply C | apply C | exact En | reflexivity].
  Qed.

  Lemma call_bytes out : marshal_returns H m (Some (t, w)) opts (MOk out) -> bytes_of H vcall o top out.
  Proof. intros R. apply encodes_bytes, call_ok, R. Qed.

  Lemma bytes_call out : bytes_of H vcall o top out -> marshal_returns H m (Some (t, w)) opts (MOk out).
  Proof. intros [n Hn]. apply call_ok. apply (encodes_venc H vcall OK o t v out None n); [eapply holds_tok; apply C | apply C | exact Hn]. Qed.

  Theorem call_inner out y : sort_ok H -> marshal_returns H m (Some (t, w)) opts (MOk out) -> inner H o top y -> exists b, bytes_of H vcall o y b /\ infix b out.
  Proof. intros SO R Hi. eapply inner_infix; eauto; [exact call_held | apply call_bytes, R]. Qed.

  Lemma call_part_tok y : part H o top y -> let '(t', _, _, _) := y in typ_ok (h_letter H) (h_udigit H) t'.
  Proof. intros Hp. assert (Hh := part_held H vcall OK o m _ _ call_held Hp). destruct y as [[[t' ca'] q'] v']. apply Hh. Qed.
End Call.
