(** Meaning of what the scalar encoders write. *)
From Verif Require Import Base Utf8 IntModel JsonSpec OptionsModel NumberModel NumberProof EscapeModel EscapeProof JsonParse CompactModel CompactProof
  IntProof TypesModel TypesFacts TagsModel TagsProof TimeModel CalendarSpec TimeProof FloatModel FloatProof DurationModel DurationProof LeafModel LeafProof
  Base64Model Base64Proof MemModel FieldsModel FieldsProof FieldsSpec InstrModel ExecModel ValueModel DocSpec.

(** ** Text that needs no escape *)
Lemma plain_units b : plain_text b -> exists us, string_units b us /\ jchars false us b.
Proof.
  intros (rs & Hu & Hf). exists (flat_map utf16 rs). split; [apply string_units_valid; exact Hu|]. apply key_raw_jchars; [exact Hu|].
  clear -Hu Hf. induction Hu as [|r s rs Hr Hu IH]; [constructor|]. inversion Hf as [|? ? (H1 & H2 & H3) Hf']; subst.
  constructor; [unfold key_rune; auto | apply IH; exact Hf'].
Qed.

Lemma plain_app a b : plain_text a -> plain_text b -> plain_text (a ++ b).
Proof.
  intros (r1 & U1 & F1) (r2 & U2 & F2). exists (r1 ++ r2). split; [apply utf8_string_app; assumption | apply Forall_app; auto].
Qed.

Definition pchar (c : Z) : Prop := 32 <= c < 128 /\ c <> 34 /\ c <> 92.

Lemma utf8_ascii_string s : Forall (fun c => 0 <= c < 128) s -> utf8_string s s.
Proof.
  induction 1 as [|c s H1 _ IH]; [constructor|]. assert (E : utf8 c ++ s = c :: s) by (rewrite utf8_ascii by lia; reflexivity).
  rewrite <- E at 1. constructor; [unfold scalar; lia | exact IH].
Qed.

Lemma plain_ascii s : Forall pchar s -> plain_text s.
Proof.
  intros Hf. exists s. split.
  - apply utf8_ascii_string. eapply Forall_impl; [|exact Hf]. unfold pchar. intros c; cbn. lia.
  - eapply Forall_impl; [|exact Hf]. unfold pchar. intros c; cbn. lia.
Qed.

Lemma ascii_units s : Forall (fun c => 0 <= c < 128) s -> string_units s (map U16 s).
Proof.
  intros Hf. replace (map U16 s) with (flat_map utf16 s).
  - apply string_units_valid, utf8_ascii_string, Hf.
  - induction Hf as [|c s H1 _ IH]; [reflexivity|]. cbn [flat_map map]. rewrite IH. unfold utf16. replace (c <? 0x10000) with true by lia. reflexivity.
Qed.

Lemma ascii_jchars s : Forall pchar s -> jchars false (map U16 s) s.
Proof.
  induction 1 as [|c s (H1 & H2 & H3) _ IH]; [constructor|]. assert (E : utf8 c ++ s = c :: s) by (rewrite utf8_ascii by lia; reflexivity).
  rewrite <- E. replace (map U16 (utf8 c ++ s)) with (utf16 c ++ map U16 s).
  - apply jc_rune; auto; [unfold scalar; lia | lia].
  - rewrite E. unfold utf16. replace (c <? 0x10000) with true by lia. reflexivity.
Qed.

Lemma digits_pchar s : Forall digit s -> Forall pchar s.
Proof. intros Hf. eapply Forall_impl; [|exact Hf]. unfold digit, pchar. intros; cbn in *; lia. Qed.

Ltac pch := unfold pchar; lia.

Lemma date_time_pchar s y mo d hh mi ss ns off : date_time s y mo d hh mi ss ns off -> Forall pchar s.
Proof.
  intros (sy & smo & sd & sh & smi & ss' & sf & sz & (_ & D1 & _) & (_ & D2 & _) & (_ & D3 & _) & (_ & D4 & _) & (_ & D5 & _) & (_ & D6 & _) & Hf & Hz & ->).
  apply digits_pchar in D1, D2, D3, D4, D5, D6.
  assert (Ff : Forall pchar sf). { destruct Hf as [|fs c Hd _ _]; constructor; [pch | apply digits_pchar; exact Hd]. }
  assert (Fz : Forall pchar sz).
  { destruct Hz as [|h m a b (_ & Da & _) (_ & Db & _) _|h m a b (_ & Da & _) (_ & Db & _) _]; apply Forall_cons; try pch; try constructor;
      apply digits_pchar in Da, Db; apply Forall_app; (split; [assumption | apply Forall_cons; [pch | assumption]]). }
  repeat (apply Forall_app; split; [assumption|]; try (apply Forall_cons; [pch|])). exact Fz.
Qed.

Lemma dunit_plain n u : dunit n u -> plain_text n.
Proof.
  assert (P : forall s, forallb (fun c => (32 <=? c) && (c <? 128) && negb (c =? 34) && negb (c =? 92)) s = true -> plain_text s).
  { intros s Hs. apply plain_ascii, Forall_forall. intros c Hc. rewrite forallb_forall in Hs. specialize (Hs c Hc). pch. }
  intros Hd. destruct Hd; try (apply P; reflexivity).
  exists [0xB5; 115]. split; [|repeat (apply Forall_cons; [lia|]); constructor].
  change [0xC2; 0xB5; 115] with (utf8 0xB5 ++ utf8 115 ++ []). repeat (constructor; [unfold scalar; lia|]). constructor.
Qed.

Lemma dterm_plain s v : dterm s v -> plain_text s.
Proof.
  intros (a & f & name & u & (_ & Ha) & Hn & Hs & _). apply dunit_plain in Hn. apply digits_pchar, plain_ascii in Ha.
  destruct Hs as [(_ & ->)|((_ & Hf) & ->)].
  - apply plain_app; assumption.
  - apply plain_app; [assumption|]. change (46 :: f ++ name) with ([46] ++ f ++ name). apply plain_app; [apply plain_ascii; repeat constructor; lia|].
    apply plain_app; [|assumption]. apply plain_ascii, digits_pchar, Hf.
Qed.

Lemma dur_text_plain s d : dur_text s d -> plain_text s.
Proof.
  assert (T : forall s d, dterms s d -> plain_text s).
  { clear s d. induction 1 as [s v Hs|s v t w Hs _ IH]; [eapply dterm_plain; eauto | apply plain_app; [eapply dterm_plain; eauto | exact IH]]. }
  intros [s' v Hs|s' v Hs]; [eapply T; eauto|]. change (45 :: s') with ([45] ++ s'). apply plain_app; [apply plain_ascii; repeat constructor; lia | eapply T; eauto].
Qed.

Lemma base64_pchar s b : base64_text s b -> Forall pchar s.
Proof. intros Hb. eapply Forall_impl; [|eapply base64_text_chars; eauto]. cbn. intros c Hc. pch. Qed.

Lemma jnumber_pchar s : jnumber s -> Forall pchar s.
Proof.
  intros Hn. eapply Forall_impl; [|apply jnumber_chars; exact Hn]. unfold numchar. intros c Hc. unfold digit in Hc. pch.
Qed.

(** ** Both readings *)
Lemma to_lax lax j s : cjson j s -> json no_ws lax j s.
Proof. intros Hj. destruct lax; [apply (proj1 (json_lax_mut no_ws)); exact Hj | exact Hj]. Qed.

Lemma json_text_of_lax lax j s : json_text lax j s -> json_text true j s.
Proof. destruct lax; [auto | apply json_text_lax]. Qed.

Lemma json_no_ws_text lax j s : json no_ws lax j s -> json_text lax j s.
Proof.
  intros Hj. exists [], s, []. rewrite app_nil_r. repeat split; try constructor. eapply json_weaken_mut; [|exact Hj]. exact no_ws_ws.
Qed.

Lemma plain_string b : plain_text b -> exists us, string_units b us /\ cjson (JStr us) (34 :: b ++ [34]).
Proof. intros Hb. destruct (plain_units b Hb) as (us & Hu & Hj). exists us. split; [exact Hu|]. apply j_str. exact Hj. Qed.

(** A text ends in null exactly when it means null. *)
Lemma tail_null_app pre c : c <> 108 -> tail_null (pre ++ [c]) = false.
Proof.
  intros Hc. unfold tail_null. destruct (4 <=? length (pre ++ [c]))%nat eqn:El; [|reflexivity]. cbn [andb].
  destruct (bytes_eqb (skipn (length (pre ++ [c]) - 4) (pre ++ [c])) l_null) eqn:Eb; [|reflexivity]. exfalso. apply bytes_eqb_eq in Eb.
  rewrite app_length in *. cbn [length] in *. rewrite skipn_app in Eb. replace (length pre + 1 - 4 - length pre)%nat with 0%nat in Eb by lia.
  cbn [skipn] in Eb. change l_null with ([110; 117; 108] ++ [108]) in Eb. apply app_inj_tail in Eb. destruct Eb. congruence.
Qed.

Lemma number_last s : jnumber s -> exists pre c, s = pre ++ [c] /\ c <> 108.
Proof.
  intros Hn. assert (Hc := jnumber_chars s Hn). destruct (jnumber_head s Hn) as (c & t & E & _).
  destruct (exists_last (l := s)) as (pre & x & Ex); [rewrite E; discriminate|]. exists pre, x. split; [exact Ex|]. rewrite Ex in Hc.
  apply Forall_app in Hc. destruct Hc as [_ Hx]. inversion Hx as [|? ? Hx' _]; subst. unfold numchar, digit in Hx'. lia.
Qed.

Lemma tail_null_json W lax j s : json W lax j s -> (tail_null s = true <-> j = JNull).
Proof.
  intros Hj. split; [|intros ->; inversion Hj; subst; reflexivity]. intros Ht. destruct Hj as [| | |l Hl|us s Hs|w Hw|vs s Hs|w Hw|ms s Hs]; try reflexivity; try discriminate Ht; exfalso.
  - destruct (number_last l Hl) as (pre & c & -> & Hc). rewrite tail_null_app in Ht by exact Hc. discriminate.
  - change (34 :: s ++ [34]) with ((34 :: s) ++ [34]) in Ht. rewrite tail_null_app in Ht by lia. discriminate.
  - change (91 :: w ++ [93]) with ((91 :: w) ++ [93]) in Ht. rewrite tail_null_app in Ht by lia. discriminate.
  - change (91 :: s ++ [93]) with ((91 :: s) ++ [93]) in Ht. rewrite tail_null_app in Ht by lia. discriminate.
  - change (123 :: w ++ [125]) with ((123 :: w) ++ [125]) in Ht. rewrite tail_null_app in Ht by lia. discriminate.
  - change (123 :: s ++ [125]) with ((123 :: s) ++ [125]) in Ht. rewrite tail_null_app in Ht by lia. discriminate.
Qed.

(** ** Numbers *)
Lemma float_doc sh b f out : shortest_ok sh -> appendFloat sh [] f b = Ret out None -> float_text sh b f out /\ jnumber out.
Proof.
  intros Hs Hr. destruct f as [|neg|neg|neg m e]; try discriminate.
  - rewrite float_zero in Hr. injection Hr as <-. cbn [app float_text]. split; [reflexivity|].
    destruct neg; [exists [45], [48], [], [] | exists [], [48], [], []]; repeat split; auto; constructor.
  - destruct (sh b m e) as [ds dp] eqn:Es. destruct (float_finite sh [] b neg m e ds dp Hs Es) as (s & M & K & E1 & Hv & Hd & _).
    rewrite E1 in Hr. injection Hr as <-. split; [|eapply num_value_jnumber; exact Hv]. exists ds, dp, M, K. auto.
Qed.

Lemma int_doc n : int_lit (append_int [] n) n /\ cjson (JNum (append_int [] n)) (append_int [] n).
Proof.
  destruct (append_int_spec [] n) as (s & E & Hs). rewrite E. cbn [app]. split; [exact Hs|]. apply j_num. eapply int_lit_jnumber; eauto.
Qed.
