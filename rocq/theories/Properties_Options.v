(** C16, C17, C47: options, field lists, and calls on nil. *)
From Coq Require Import Permutation Sorted.
From Verif Require Import Base Utf8 JsonSpec OptionsModel IntModel TypesModel TypesFacts TimeModel FloatModel MemModel FieldsModel FieldsProof InstrModel ExecModel ValueModel
  ExecProof VencFacts MarshalThm DocSpec EntriesFacts PartFacts DocProof SafeProof ApiFacts PartsThm ShapeThm CallFacts ExampleHost ExampleConst ExampleRead.

(** ** What a list of options says *)
(** The options without argument and the flag of each (options.go:28-40). *)
Definition flag_options : list (option_ * bitmask) :=
  [(OUnixTime, unixTime); (OUnsortedMap, unsortedMap); (ORawByteSlice, rawByteSlice); (OByteArrayAsString, byteArrayAsString);
   (ONilMapEmpty, nilMapEmpty); (ONilSliceEmpty, nilSliceEmpty); (ONoStringEscaping, noStringEscaping); (ONoHTMLEscaping, noHTMLEscaping);
   (ONoUTF8Coercion, noUTF8Coercion); (ONoNumberValidation, noNumberValidation); (ONoCompact, noCompact)].

(** a is the argument of the last option built by mk. *)
Definition last_set {A} (mk : A -> option_) (opts : list (option option_)) (a : A) : Prop :=
  exists pre post, opts = pre ++ Some (mk a) :: post /\ forall b, ~ In (Some (mk b)) post.
Definition never_set {A} (mk : A -> option_) (opts : list (option option_)) : Prop := forall a, ~ In (Some (mk a)) opts.

(** The option list leaves a nil context, an empty layout or an unknown
    duration format. *)
Definition unacceptable (opts : list (option option_)) : Prop :=
  last_set OWithContext opts None \/ last_set OTimeLayout opts [] \/ exists f, last_set ODurationFormat opts f /\ (f < 0 \/ 5 < f).
(** The fault reported: the first of the three. *)
Definition unknown_format (opts : list (option option_)) : Prop := exists f, last_set ODurationFormat opts f /\ (f < 0 \/ 5 < f).
Definition rejection (opts : list (option option_)) (e : oerr) : Prop :=
  match e with
  | NilContext => last_set OWithContext opts None
  | EmptyLayout => ~ last_set OWithContext opts None /\ last_set OTimeLayout opts []
  | UnknownFormat => ~ last_set OWithContext opts None /\ ~ last_set OTimeLayout opts [] /\ unknown_format opts
  end.

(** A name is kept out by the lists. *)
Definition concealed (opts : list (option option_)) (name : bytes) : Prop :=
  (exists d, last_set ODenyList opts d /\ In name d) \/ (exists a, last_set OAllowList opts a /\ ~ In name a).

(** Two lists say the same. *)
Definition same_settings (opts opts' : list (option option_)) : Prop :=
  (forall x f, In (x, f) flag_options -> (In (Some x) opts <-> In (Some x) opts')) /\
  (forall a, last_set OTimeLayout opts a <-> last_set OTimeLayout opts' a) /\
  (forall a, last_set ODurationFormat opts a <-> last_set ODurationFormat opts' a) /\
  (forall a, last_set OWithContext opts a <-> last_set OWithContext opts' a) /\
  (forall a, last_set OAllowList opts a <-> last_set OAllowList opts' a) /\
  (forall a, last_set ODenyList opts a <-> last_set ODenyList opts' a).

(** The configuration a list gives (json.go:134-136). *)
Definition config (opts : list (option option_)) : encOpts := apply default_opts opts.

(** ** Flags *)
Lemma apply_app o l l' : apply o (l ++ l') = apply (apply o l) l'.
Proof. revert o. induction l as [|[x|] l IH]; intros o; [reflexivity | cbn; apply IH | cbn; apply IH]. Qed.

Lemma has_bit b i : has b (Z.shiftl 1 (Z.of_nat i)) = Z.testbit b (Z.of_nat i).
Proof.
  unfold has. rewrite Z.shiftl_1_l. destruct (Z.testbit b (Z.of_nat i)) eqn:Et.
  - apply negb_true_iff, Z.eqb_neq. intros C. assert (X : Z.testbit (Z.land b (2 ^ Z.of_nat i)) (Z.of_nat i) = true) by (rewrite Z.land_spec, Et, Z.pow2_bits_true; [reflexivity | lia]).
    rewrite C, Z.bits_0 in X. discriminate.
  - apply negb_false_iff, Z.eqb_eq. apply Z.bits_inj'. intros k Hk. rewrite Z.land_spec, Z.bits_0, Z.pow2_bits_eqb by lia.
    destruct (Z.of_nat i =? k) eqn:Ek; [apply Z.eqb_eq in Ek; subst k; rewrite Et; reflexivity | apply andb_false_r].
Qed.

(** The bit of a flag option. *)
Definition bit_of (x : option_) : option nat :=
  match x with
  | OUnixTime => Some 0 | OUnsortedMap => Some 1 | ORawByteSlice => Some 2 | OByteArrayAsString => Some 3 | ONilMapEmpty => Some 4 | ONilSliceEmpty => Some 5
  | ONoStringEscaping => Some 6 | ONoHTMLEscaping => Some 7 | ONoUTF8Coercion => Some 8 | ONoCompact => Some 9 | ONoNumberValidation => Some 10
  | _ => None
  end%nat.

Lemma bit_of_flags x f : In (x, f) flag_options -> exists i, bit_of x = Some i /\ f = Z.shiftl 1 (Z.of_nat i).
Proof.
  intros Hi. repeat (destruct Hi as [Hi|Hi]; [injection Hi as <- <-; eexists; split; reflexivity|]). destruct Hi.
Qed.
Lemma flags_bit_of x i : bit_of x = Some i -> exists f, In (x, f) flag_options.
Proof. destruct x; try discriminate; intros _; eexists; unfold flag_options; cbn; eauto 15. Qed.
Lemma bit_inj x y i : bit_of x = Some i -> bit_of y = Some i -> x = y.
Proof. destruct x, y; cbn; intros A B; try reflexivity; congruence. Qed.

Lemma apply_bit o l i : Z.testbit (o_flags (apply o l)) (Z.of_nat i) = true <-> Z.testbit (o_flags o) (Z.of_nat i) = true \/ exists x, bit_of x = Some i /\ In (Some x) l.
Proof.
  revert o. induction l as [|[x|] l IH]; intros o; cbn [apply].
  - split; [auto|]. intros [A|(x & _ & [])]. exact A.
  - rewrite IH. assert (A : Z.testbit (o_flags (apply1 o x)) (Z.of_nat i) = true <-> Z.testbit (o_flags o) (Z.of_nat i) = true \/ bit_of x = Some i).
    { assert (F : forall k, bit_of x = Some k -> o_flags (apply1 o x) = Z.lor (o_flags o) (2 ^ Z.of_nat k)).
      { intros k Hk. destruct x; try discriminate; injection Hk as <-; reflexivity. }
      destruct (bit_of x) as [k|] eqn:Ek.
      - rewrite (F k eq_refl), Z.lor_spec, Z.pow2_bits_eqb, orb_true_iff, Z.eqb_eq by lia. split; (intros [B|B]; [left; exact B | right]); [f_equal; lia | injection B as ->; reflexivity].
      - assert (o_flags (apply1 o x) = o_flags o) as -> by (destruct x; try discriminate; reflexivity). split; [auto | intros [B|B]; [exact B | discriminate]]. }
    rewrite A. split.
    + intros [[B|B]|(y & B1 & B2)]; [left; exact B | right; exists x; split; [exact B | left; reflexivity] | right; exists y; split; [exact B1 | right; exact B2]].
    + intros [B|(y & B1 & [B2|B2])]; [left; left; exact B | injection B2 as ->; left; right; exact B1 | right; exists y; auto].
  - rewrite IH. split; (intros [A|(x & B1 & B2)]; [left; exact A|]); right; exists x; (split; [exact B1|]); [right; exact B2 | destruct B2 as [B2|B2]; [discriminate | exact B2]].
Qed.

Theorem C16_flags opts x f : In (x, f) flag_options -> (has (o_flags (config opts)) f = true <-> In (Some x) opts).
Proof.
  intros Hi. destruct (bit_of_flags x f Hi) as (i & Hb & ->). rewrite has_bit. unfold config. rewrite apply_bit. cbn [default_opts o_flags]. rewrite Z.bits_0. split.
  - intros [A|(y & A & B)]; [discriminate|]. rewrite (bit_inj x y i Hb A). exact B.
  - intros A. right. exists x. auto.
Qed.

(** ** Settings *)
(** For each setting: the last one wins, whatever surrounds it. *)
Lemma last_or_never {A} (mk : A -> option_) (dec : forall x, (exists a, x = mk a) \/ (forall a, x <> mk a)) opts : (exists a, last_set mk opts a) \/ never_set mk opts.
Proof.
  induction opts as [|x opts IH]; [right; intros a []|]. destruct IH as [(a & pre & post & -> & Hn)|Hn].
  - left. exists a, (x :: pre), post. split; [reflexivity | exact Hn].
  - destruct x as [x|]; [|right; intros a [C|C]; [discriminate | exact (Hn a C)]]. destruct (dec x) as [(a & ->)|Hx].
    + left. exists a, [], opts. split; [reflexivity | exact Hn].
    + right. intros a [C|C]; [injection C as C; exact (Hx a C) | exact (Hn a C)].
Qed.

Lemma setting {A B} (mk : A -> option_) (get : encOpts -> B) (put : A -> B) :
  (forall x, (exists a, x = mk a) \/ (forall a, x <> mk a)) -> (forall o a, get (apply1 o (mk a)) = put a) -> (forall o x, (forall a, x <> mk a) -> get (apply1 o x) = get o) ->
  forall opts, (forall a, last_set mk opts a -> get (config opts) = put a) /\ (never_set mk opts -> get (config opts) = get default_opts).
Proof.
  intros Hd Hs Hk. assert (K : forall l o, never_set mk l -> get (apply o l) = get o).
  { induction l as [|[x|] l IH]; intros o Hn; cbn [apply]; [reflexivity | |].
    - rewrite IH by (intros a C; apply (Hn a); right; exact C). apply Hk. intros a ->. apply (Hn a). left. reflexivity.
    - apply IH. intros a C. apply (Hn a). right. exact C. }
  intros opts. split; [|apply K]. intros a (pre & post & -> & Hn). unfold config. rewrite apply_app. cbn [apply]. rewrite K by exact Hn. apply Hs.
Qed.

Ltac kind_dec := intros []; first [left; eexists; reflexivity | right; intros; discriminate].
Ltac keeps := intros o0 []; intros Hk0; try reflexivity; exfalso; eapply Hk0; reflexivity.

Theorem C16_last_wins opts :
  ((forall l, last_set OTimeLayout opts l -> o_timeLayout (config opts) = l) /\ (never_set OTimeLayout opts -> o_timeLayout (config opts) = lit "2006-01-02T15:04:05.999999999Z07:00")) /\
  ((forall f, last_set ODurationFormat opts f -> o_durationFmt (config opts) = f) /\ (never_set ODurationFormat opts -> o_durationFmt (config opts) = 5)) /\
  ((forall c, last_set OWithContext opts c -> o_ctx (config opts) = c) /\ (never_set OWithContext opts -> o_ctx (config opts) = Some ctx_todo)) /\
  ((forall l, last_set OAllowList opts l -> o_allow (config opts) = Some l) /\ (never_set OAllowList opts -> o_allow (config opts) = None)) /\
  ((forall l, last_set ODenyList opts l -> o_deny (config opts) = Some l) /\ (never_set ODenyList opts -> o_deny (config opts) = None)).
Proof.
  repeat split.
  - intros l. apply (setting OTimeLayout o_timeLayout (fun l => l)); [kind_dec | reflexivity | keeps].
  - apply (setting OTimeLayout o_timeLayout (fun l => l)); [kind_dec | reflexivity | keeps].
  - intros l. apply (setting ODurationFormat o_durationFmt (fun l => l)); [kind_dec | reflexivity | keeps].
  - apply (setting ODurationFormat o_durationFmt (fun l => l)); [kind_dec | reflexivity | keeps].
  - intros l. apply (setting OWithContext o_ctx (fun l => l)); [kind_dec | reflexivity | keeps].
  - apply (setting OWithContext o_ctx (fun l => l)); [kind_dec | reflexivity | keeps].
  - intros l. apply (setting OAllowList o_allow (fun l => Some l)); [kind_dec | reflexivity | keeps].
  - apply (setting OAllowList o_allow (fun l => Some l)); [kind_dec | reflexivity | keeps].
  - intros l. apply (setting ODenyList o_deny (fun l => Some l)); [kind_dec | reflexivity | keeps].
  - apply (setting ODenyList o_deny (fun l => Some l)); [kind_dec | reflexivity | keeps].
Qed.

Lemma layout_dec opts : (exists a, last_set OTimeLayout opts a) \/ never_set OTimeLayout opts. Proof. apply last_or_never. kind_dec. Qed.
Lemma dur_dec opts : (exists a, last_set ODurationFormat opts a) \/ never_set ODurationFormat opts. Proof. apply last_or_never. kind_dec. Qed.
Lemma ctx_dec opts : (exists a, last_set OWithContext opts a) \/ never_set OWithContext opts. Proof. apply last_or_never. kind_dec. Qed.
Lemma allow_dec opts : (exists a, last_set OAllowList opts a) \/ never_set OAllowList opts. Proof. apply last_or_never. kind_dec. Qed.
Lemma deny_dec opts : (exists a, last_set ODenyList opts a) \/ never_set ODenyList opts. Proof. apply last_or_never. kind_dec. Qed.

Lemma never_last {A} (mk : A -> option_) opts : never_set mk opts <-> forall a, ~ last_set mk opts a.
Proof.
  split.
  - intros Hn a (pre & post & -> & _). apply (Hn a), in_elt.
  - intros Hl. induction opts as [|x opts IH]; [intros a []|].
    assert (N : never_set mk opts). { apply IH. intros a (pre & post & -> & Hp). apply (Hl a). exists (x :: pre), post. split; [reflexivity | exact Hp]. }
    intros a [->|C]; [|exact (N a C)]. apply (Hl a). exists [], opts. split; [reflexivity | exact N].
Qed.

(** Order, repetition and nil options do not matter beyond that. *)
Lemma high_bits l : forall o i, (11 <= i)%nat -> Z.testbit (o_flags o) (Z.of_nat i) = false -> Z.testbit (o_flags (apply o l)) (Z.of_nat i) = false.
Proof.
  intros o i Hi Ho. destruct (Z.testbit (o_flags (apply o l)) (Z.of_nat i)) eqn:Et; [|reflexivity]. apply apply_bit in Et. destruct Et as [Et|(x & Hx & _)]; [congruence|].
  destruct x; try discriminate; injection Hx as <-; lia.
Qed.

Lemma config_same opts opts' : same_settings opts opts' -> config opts = config opts'.
Proof.
  intros (F & L & D & C & A & N). destruct (C16_last_wins opts) as ((L1 & L2) & (D1 & D2) & (C1 & C2) & (A1 & A2) & (N1 & N2)).
  destruct (C16_last_wins opts') as ((L1' & L2') & (D1' & D2') & (C1' & C2') & (A1' & A2') & (N1' & N2')).
  assert (T : forall {X} (mk : X -> option_), (forall a, last_set mk opts a <-> last_set mk opts' a) -> never_set mk opts -> never_set mk opts').
  { intros X mk Hm Hn. rewrite never_last in Hn |- *. intros a Ha. apply (Hn a), Hm, Ha. }
  assert (E1 : o_timeLayout (config opts) = o_timeLayout (config opts')).
  { destruct (layout_dec opts) as [[a Ha]|Hn]; [rewrite (L1 a Ha), (L1' a) by (apply L, Ha); reflexivity | rewrite (L2 Hn), (L2' (T _ _ L Hn)); reflexivity]. }
  assert (E2 : o_durationFmt (config opts) = o_durationFmt (config opts')).
  { destruct (dur_dec opts) as [[a Ha]|Hn]; [rewrite (D1 a Ha), (D1' a) by (apply D, Ha); reflexivity | rewrite (D2 Hn), (D2' (T _ _ D Hn)); reflexivity]. }
  assert (E3 : o_ctx (config opts) = o_ctx (config opts')).
  { destruct (ctx_dec opts) as [[a Ha]|Hn]; [rewrite (C1 a Ha), (C1' a) by (apply C, Ha); reflexivity | rewrite (C2 Hn), (C2' (T _ _ C Hn)); reflexivity]. }
  assert (E4 : o_allow (config opts) = o_allow (config opts')).
  { destruct (allow_dec opts) as [[a Ha]|Hn]; [rewrite (A1 a Ha), (A1' a) by (apply A, Ha); reflexivity | rewrite (A2 Hn), (A2' (T _ _ A Hn)); reflexivity]. }
  assert (E5 : o_deny (config opts) = o_deny (config opts')).
  { destruct (deny_dec opts) as [[a Ha]|Hn]; [rewrite (N1 a Ha), (N1' a) by (apply N, Ha); reflexivity | rewrite (N2 Hn), (N2' (T _ _ N Hn)); reflexivity]. }
  assert (E6 : o_flags (config opts) = o_flags (config opts')).
  { apply Z.bits_inj'. intros k Hk. rewrite <- (Z2Nat.id k) by lia. destruct (le_lt_dec 11 (Z.to_nat k)) as [Hi|Hi].
    - unfold config. rewrite !high_bits; try assumption; try reflexivity; cbn [default_opts o_flags]; apply Z.bits_0.
    - assert (X : exists x, bit_of x = Some (Z.to_nat k)).
      { assert (Y : In (Z.to_nat k) [0; 1; 2; 3; 4; 5; 6; 7; 8; 9; 10]%nat) by (cbn; lia).
        repeat (destruct Y as [Y|Y]; [rewrite <- Y; first
          [exists OUnixTime; reflexivity | exists OUnsortedMap; reflexivity | exists ORawByteSlice; reflexivity | exists OByteArrayAsString; reflexivity | exists ONilMapEmpty; reflexivity | exists ONilSliceEmpty; reflexivity
          | exists ONoStringEscaping; reflexivity | exists ONoHTMLEscaping; reflexivity | exists ONoUTF8Coercion; reflexivity | exists ONoCompact; reflexivity | exists ONoNumberValidation; reflexivity]|]). destruct Y. }
      destruct X as (x & Hx). destruct (flags_bit_of x _ Hx) as (f & Hf). destruct (bit_of_flags x f Hf) as (i & Hi1 & Hi2). assert (i = Z.to_nat k) by congruence. subst i.
      assert (Q1 := C16_flags opts x f Hf). assert (Q2 := C16_flags opts' x f Hf). rewrite Hi2, has_bit in Q1, Q2. specialize (F x f Hf).
      destruct (Z.testbit (o_flags (config opts)) _), (Z.testbit (o_flags (config opts')) _); try reflexivity.
      + symmetry. apply Q2, F, Q1. reflexivity.
      + apply Q1, F, Q2. reflexivity. }
  destruct (config opts), (config opts'). cbn in E1, E2, E3, E4, E5, E6. congruence.
Qed.

Lemma call_opts_config opts : call_opts opts = match validate (config opts) with None => Some (config opts) | Some _ => None end.
Proof. unfold call_opts. destruct opts; [reflexivity|]. unfold check_opts. cbv zeta. fold (config (o :: opts)). destruct (validate (config (o :: opts))); reflexivity. Qed.

Lemma check_opts_config opts : check_opts opts = match validate (config opts) with None => inl (config opts) | Some e => inr e end.
Proof. destruct opts; reflexivity. Qed.

Theorem C16_order_irrelevant H m v opts opts' : same_settings opts opts' ->
  (forall r, marshal_returns H m v opts r <-> marshal_returns H m v opts' r) /\
  (forall dst r, append_returns H m dst v opts r <-> append_returns H m dst v opts' r).
Proof.
  intros Hs. assert (E : check_opts opts = check_opts opts') by (rewrite !check_opts_config, (config_same _ _ Hs); reflexivity).
  split; [intros r | intros dst r]; unfold marshal_returns, append_returns, MarshalOpts, AppendOpts; rewrite E; reflexivity.
Qed.

(** ** Rejection *)
Lemma validate_rejection opts e : validate (config opts) = Some e <-> rejection opts e.
Proof.
  destruct (C16_last_wins opts) as ((L1 & L2) & (D1 & D2) & (C1 & C2) & _).
  assert (Cn : o_ctx (config opts) = None <-> last_set OWithContext opts None).
  { split; [|apply C1]. intros E. destruct (ctx_dec opts) as [[a Ha]|Hn]; [rewrite (C1 a Ha) in E; subst a; exact Ha | rewrite (C2 Hn) in E; discriminate]. }
  assert (Ln : o_timeLayout (config opts) = [] <-> last_set OTimeLayout opts []).
  { split; [|apply L1]. intros E. destruct (layout_dec opts) as [[a Ha]|Hn]; [rewrite (L1 a Ha) in E; subst a; exact Ha | rewrite (L2 Hn) in E; discriminate]. }
  assert (Dn : dur_valid (o_durationFmt (config opts)) = false <-> unknown_format opts).
  { split.
    - intros E. destruct (dur_dec opts) as [[a Ha]|Hn]; [|rewrite (D2 Hn) in E; discriminate]. exists a. split; [exact Ha|]. rewrite (D1 a Ha) in E. unfold dur_valid, DurationString, DurationNanoseconds in E. lia.
    - intros (f & Hf & Hr). rewrite (D1 f Hf). unfold dur_valid, DurationString, DurationNanoseconds. lia. }
  clear - Cn Ln Dn. unfold validate. assert (R : rejection opts e <-> match e with NilContext => o_ctx (config opts) = None | EmptyLayout => o_ctx (config opts) <> None /\ o_timeLayout (config opts) = []
    | UnknownFormat => o_ctx (config opts) <> None /\ o_timeLayout (config opts) <> [] /\ dur_valid (o_durationFmt (config opts)) = false end) by (destruct e; cbn [rejection]; tauto).
  rewrite R. clear R.
  destruct (o_ctx (config opts)) as [c|]; [|destruct e; split; try discriminate; try tauto].
  destruct (bytes_eqb (o_timeLayout (config opts)) []) eqn:El.
  - apply bytes_eqb_eq in El. rewrite El. destruct e; split; try discriminate; try tauto; intros _; split; [discriminate | reflexivity].
  - assert (El' : o_timeLayout (config opts) <> []) by (intros E; rewrite E in El; discriminate).
    destruct (dur_valid (o_durationFmt (config opts))); cbn [negb]; destruct e; split; try discriminate; try tauto; intros X; try (destruct X as (_ & _ & X); discriminate).
    repeat split; auto; discriminate.
Qed.

Lemma unacceptable_rejection opts : unacceptable opts <-> exists e, rejection opts e.
Proof.
  split.
  - intros Hu. destruct (validate (config opts)) as [e|] eqn:Ev; [exists e; apply validate_rejection, Ev|]. exfalso.
    assert (N : forall e, ~ rejection opts e) by (intros e R; apply validate_rejection in R; congruence).
    assert (N1 := N NilContext). assert (N2 := N EmptyLayout). assert (N3 := N UnknownFormat). cbn [rejection] in *. unfold unacceptable, unknown_format in *. tauto.
  - intros [[| |] R]; cbn [rejection] in R; unfold unacceptable, unknown_format in *; tauto.
Qed.

Lemma unacceptable_none opts : unacceptable opts <-> call_opts opts = None.
Proof.
  rewrite unacceptable_rejection, call_opts_config. split.
  - intros [e R]. apply validate_rejection in R. rewrite R. reflexivity.
  - destruct (validate (config opts)) as [e|] eqn:Ev; [|discriminate]. intros _. exists e. apply validate_rejection, Ev.
Qed.

(** Rejected lists: the error, whatever the value, and no bytes.  A list with
    several faults is blamed for the first of them. *)
Theorem C16_rejected H m v opts : (unacceptable opts <-> exists e, rejection opts e) /\
  forall e, rejection opts e ->
    (forall r, marshal_returns H m (Some v) opts r <-> r = MErr (EInvalidOption e)) /\
    (forall dst r, append_returns H m dst (Some v) opts r <-> r = Ret [] (Some (EInvalidOption e))).
Proof.
  split; [apply unacceptable_rejection|]. intros e He. apply validate_rejection in He.
  unfold marshal_returns, append_returns, MarshalOpts, AppendOpts. rewrite check_opts_config, He.
  split; [intros r | intros dst r]; (split; [intros (N & <- & _); reflexivity | intros ->; exists 0%nat; split; [reflexivity | discriminate]]).
Qed.

(** All other lists are accepted: the call never fails for its options. *)
Theorem C16_accepted H vcall m t w v opts : host_ok H vcall -> ~ unacceptable opts -> holds H m t w v -> dyn_ok H t -> all_readable H (config opts) (t, is_ptr H t, false, v) ->
  (exists r, marshal_returns H m (Some (t, w)) opts r) /\ forall e, ~ marshal_returns H m (Some (t, w)) opts (MErr (EInvalidOption e)).
Proof.
  intros OK Hu Hh Hd Hr. assert (Ho : call_opts opts = Some (config opts)).
  { rewrite unacceptable_none in Hu. rewrite call_opts_config in Hu |- *. destruct (validate (config opts)); [tauto | reflexivity]. }
  destruct (call_returns H vcall OK m t w v opts (config opts) (Build_call _ _ _ _ _ _ _ Hh Ho Hd Hr)) as (out & err & A & B). split; [exists (outcome out err); apply B; reflexivity|].
  intros e0 C. apply B in C. destruct err as [e|]; [|discriminate]. injection C as <-. apply encodes_inv in A. destruct A as [n Hn].
  destruct (error_raised H vcall (config opts) OK n t _ _ v out _ Hn) as (y & _ & Y). inversion Y.
Qed.

(** ** C17: the lists *)
Lemma denied_concealed opts name : denied (config opts) name <-> concealed opts name.
Proof.
  destruct (C16_last_wins opts) as (_ & _ & _ & (A1 & A2) & (N1 & N2)). unfold denied, concealed. split.
  - intros [(d & Ed & Hi)|(a & Ea & Hi)].
    + left. exists d. split; [|exact Hi]. destruct (deny_dec opts) as [[x Hx]|Hn]; [rewrite (N1 x Hx) in Ed; injection Ed as <-; exact Hx | rewrite (N2 Hn) in Ed; discriminate].
    + right. exists a. split; [|exact Hi]. destruct (allow_dec opts) as [[x Hx]|Hn]; [rewrite (A1 x Hx) in Ea; injection Ea as <-; exact Hx | rewrite (A2 Hn) in Ea; discriminate].
  - intros [(d & Hd & Hi)|(a & Ha & Hi)]; [left; exists d | right; exists a]; auto.
Qed.

Lemma call_config H m t w v opts o : call H m t w v opts o -> o = config opts.
Proof. intros [_ Ho _ _]. rewrite call_opts_config in Ho. destruct (validate (config opts)); [discriminate | congruence]. Qed.

(** At every level: the members written for a struct inside the value are those
    of the selected fields that the lists do not conceal, that are present (no
    nil embedded pointer on the way) and that omitempty and omitnil keep. *)
Theorem C17_fields H vcall m t w v opts o out st ca q fs0 vs k fs : host_ok H vcall -> sort_ok H ->
  call H m t w v opts o -> marshal_returns H m (Some (t, w)) opts (MOk out) ->
  inner H o (t, is_ptr H t, false, v) (st, ca, q, VStruct vs) -> DocSpec.plain H st ca -> under (h_env H) st = TStruct fs0 -> structFields H k st = Some fs ->
  exists l, infix (object_text o l) out /\
    forall f, In f (map fst l) <-> In f fs /\ ~ concealed opts (f_name f) /\ exists ft x, field_value H st (VStruct vs) f ft x /\ ~ dropped f x.
Proof.
  intros OK SO C R Hi P U S. destruct (call_inner H vcall OK m t w v opts o C out _ SO R Hi) as (b & Hb & Hx).
  assert (T := call_part_tok H vcall OK m t w v opts o C _ (inner_part H o _ _ Hi)). cbn in T.
  destruct (struct_bytes H vcall OK o st ca q fs0 vs b T P U Hb) as (k' & fs' & l & S' & Hs & ->). assert (fs' = fs) by (eapply structFields_det; eauto). subst fs'.
  exists l. split; [exact Hx|]. intros f. rewrite <- denied_concealed, <- (call_config _ _ _ _ _ _ _ C). split.
  - intros Hf. apply in_map_iff in Hf. destruct Hf as ([f' b'] & <- & Hf). destruct (shown_bytes_in H vcall o _ _ _ _ _ Hs _ _ Hf) as (A & ft & x & _ & (B1 & B2 & B3) & _). cbn [fst].
    split; [exact A|]. split; [exact B1|]. exists ft, x. auto.
  - intros (A & B & ft & x & D1 & D2). destruct (shown_bytes_all H vcall o _ _ _ _ _ Hs f ft x A (conj B (conj D1 D2))) as (b' & Hf). apply in_map_iff. exists (f, b'). auto.
Qed.

(** An empty allow list hides every field, and so no field can fail. *)
Theorem C17_empty_allow H vcall m t w v opts o fs0 vs : host_ok H vcall ->
  call H m t w v opts o -> DocSpec.plain H t (is_ptr H t) -> under (h_env H) t = TStruct fs0 -> v = VStruct vs -> last_set OAllowList opts [] ->
  forall r, marshal_returns H m (Some (t, w)) opts r <-> r = MOk [123; 125].
Proof.
  intros OK C P U -> La. assert (De : forall n, denied o n). { intros n. rewrite (call_config _ _ _ _ _ _ _ C). apply denied_concealed. right. exists []. split; [exact La | intros []]. }
  destruct (call_returns H vcall OK m t w _ opts o C) as (out & err & A & B). assert (D := encodes_inv _ _ _ _ _ _ _ A). destruct D as [n Hn].
  assert (err = None). { destruct err as [e|]; [|reflexivity]. exfalso. destruct (error_raised H vcall o OK n t _ _ _ out _ Hn) as (y & Hp & Hr).
    inversion Hp as [|? z ? Hc _]; subst; [|inversion Hc; subst; try congruence; match goal with Hs : shown _ _ _ _ _ _ _ |- _ => destruct Hs as [Hs _]; apply Hs, De end].
    inversion Hr; subst; try congruence; match goal with Hq : opaque _ _ = true |- _ => unfold opaque in Hq; rewrite U in Hq; discriminate | Hq : method_of _ _ _ = Some _ |- _ => destruct P; congruence end. }
  subst err. destruct (struct_bytes H vcall OK o t _ _ fs0 vs out (holds_tok _ _ _ _ _ (c_holds _ _ _ _ _ _ _ C)) P U (ex_intro _ n Hn)) as (k & fs & l & S & Hs & ->).
  assert (l = []). { destruct l as [|[f b] l]; [reflexivity|]. destruct (shown_bytes_in H vcall o _ _ _ _ _ Hs f b (or_introl eq_refl)) as (_ & ft & x & _ & (X & _) & _). destruct (X (De _)). }
  subst l. exact B.
Qed.

(** ** C47 *)
Theorem C47_nil H m opts :
  (forall r, marshal_returns H m None opts r <-> r = MOk l_null) /\ (forall dst r, append_returns H m dst None opts r <-> r = Ret (dst ++ l_null) None).
Proof.
  unfold marshal_returns, append_returns. split; [intros r | intros dst r]; (split; [intros (N & <- & _); reflexivity | intros ->; exists 0%nat; split; [reflexivity | discriminate]]).
Qed.
Theorem C47_nil_no_options H N m dst : Marshal H N m None = MOk [110; 117; 108; 108] /\ Append H N m dst None = Ret (dst ++ [110; 117; 108; 108]) None.
Proof. split; reflexivity. Qed.
(** Before anything is encoded: the result does not depend on memory, nor on
    the value. *)
Theorem C47_rejected_first H m m' v v' opts r : unacceptable opts -> (marshal_returns H m (Some v) opts r <-> marshal_returns H m' (Some v') opts r).
Proof.
  intros Hu. apply unacceptable_rejection in Hu. destruct Hu as [e He].
  rewrite (proj1 (proj2 (C16_rejected H m v opts) e He)), (proj1 (proj2 (C16_rejected H m' v' opts) e He)). reflexivity.
Qed.

(** ** Examples *)
Definition many : list (option option_) :=
  [Some ONoCompact; None; Some (OTimeLayout (lit "x")); Some OUnixTime; Some (ODurationFormat 9); Some ONoCompact; Some (OTimeLayout (lit "2006")); Some (ODurationFormat 1)].
Definition few : list (option option_) := [Some (ODurationFormat 1); Some OUnixTime; Some (OTimeLayout (lit "2006")); Some ONoCompact].
Example C16_ex : has (o_flags (config many)) noCompact = true /\ has (o_flags (config many)) unsortedMap = false /\ o_durationFmt (config many) = 1 /\ config many = config few /\ ~ unacceptable many.
Proof. repeat split. rewrite unacceptable_none. vm_compute. discriminate. Qed.
Example C16_ex_bad : unacceptable [Some (OWithContext (Some 3)); Some (ODurationFormat 6); None] /\ unacceptable [Some (OWithContext None)] /\
  rejection [Some (ODurationFormat (-1)); Some (OTimeLayout [])] EmptyLayout.
Proof.
  split; [right; right; exists 6; split; [|lia]; exists [Some (OWithContext (Some 3))], [None]; split; [reflexivity | intros b [C|[]]; discriminate]|].
  split; [left; exists [], []; split; [reflexivity | intros b []]|]. apply validate_rejection. reflexivity.
Qed.

(** type T struct { A int; B []struct { A, C string } } *)
Definition inner_t : typ := TStruct [fld "A" "" TString; fld "C" "" TString].
Definition listH : host := plainH [TStruct [fld "A" "" (TInt KInt); fld "B" "" (TSlice inner_t)]].
Definition list_v : val := VStruct [VInt 1; VSlice [VStruct [VStr (lit "x"); VStr (lit "y")]; VStruct [VStr (lit "z"); VStr []]]].
Definition list_opts : list (option option_) := [Some (ODenyList (lit "A" :: nil)); Some (OAllowList [lit "A"; lit "B"; lit "C"]); None].
Lemma list_ok : host_ok listH plainV. Proof. apply plainH_ok. vm_compute. reflexivity. Qed.
Lemma list_call : call listH (mem_of listH (TNamed 0) list_v) (TNamed 0) (word_of listH (TNamed 0) list_v) list_v list_opts (config list_opts).
Proof. apply (plain_call _ 10); vm_compute; reflexivity. Qed.
Example C17_ex : marshal_returns listH (mem_of listH (TNamed 0) list_v) (Some (TNamed 0, word_of listH (TNamed 0) list_v)) list_opts (MOk (lit "{""B"":[{""C"":""y""},{""C"":""""}]}")).
Proof. exists 10%nat. split; [vm_compute; reflexivity | discriminate]. Qed.
(** The theorem applies to the second element of B. *)
Example C17_ex_inner : exists l, infix (object_text (config list_opts) l) (lit "{""B"":[{""C"":""y""},{""C"":""""}]}") /\ forall f, In f (map fst l) -> f_name f = lit "C".
Proof.
  destruct (C17_fields listH plainV _ _ _ _ _ _ _ inner_t true false [fld "A" "" TString; fld "C" "" TString] [VStr (lit "z"); VStr []] 10
    (match structFields listH 10 inner_t with Some fs => fs | None => [] end) list_ok (constH_sort _ _ _) list_call C17_ex) as (l & Hx & Hl);
    [apply (walk_ok _ _ 10 [0; 1]%nat); vm_compute; reflexivity | split; reflexivity | reflexivity | vm_compute; reflexivity|].
  exists l. split; [exact Hx|]. intros f Hf. apply Hl in Hf. destruct Hf as (A & B & _). vm_compute in A. destruct A as [<-|[<-|[]]]; [|reflexivity].
  exfalso. apply B. left. exists [lit "A"]. split; [|left; reflexivity]. exists [], [Some (OAllowList [lit "A"; lit "B"; lit "C"]); None]. split; [reflexivity | intros b [C|[C|[]]]; discriminate].
Qed.
Definition no_fields : list (option option_) := [Some (OAllowList [lit "A"]); Some (OAllowList [])].
Example C17_ex_empty : marshal_returns listH (mem_of listH (TNamed 0) list_v) (Some (TNamed 0, word_of listH (TNamed 0) list_v)) no_fields (MOk (lit "{}")).
Proof.
  eapply (C17_empty_allow listH plainV _ _ _ list_v no_fields (config no_fields)); [apply list_ok | apply (plain_call _ 10); vm_compute; reflexivity | split; reflexivity | reflexivity | reflexivity | | reflexivity].
  exists [Some (OAllowList [lit "A"])], []. split; [reflexivity | intros b []].
Qed.
Example C47_ex : marshal_returns listH (fun _ => None) None [Some (OWithContext None)] (MOk (lit "null")) /\ marshal_returns listH (fun _ => None) (Some (TNamed 0, 0)) [Some (OWithContext None)] (MErr (EInvalidOption NilContext)).
Proof. split; exists 0%nat; (split; [reflexivity | discriminate]). Qed.
Example C16_ex_accepted : exists r, marshal_returns listH (mem_of listH (TNamed 0) list_v) (Some (TNamed 0, word_of listH (TNamed 0) list_v)) many r.
Proof.
  apply (C16_accepted listH plainV _ _ _ list_v many list_ok (proj2 (proj2 (proj2 (proj2 C16_ex)))));
    [exact (c_holds _ _ _ _ _ _ _ list_call) | exact (c_dyn _ _ _ _ _ _ _ list_call) | intros y Hy; eapply (readableb_ok listH (config many) 10); [|exact Hy]; vm_compute; reflexivity].
Qed.

Print Assumptions C16_flags.
Print Assumptions C16_last_wins.
Print Assumptions C16_order_irrelevant.
Print Assumptions C16_rejected.
Print Assumptions C16_accepted.
Print Assumptions C17_fields.
Print Assumptions C17_empty_allow.
Print Assumptions C47_nil.
Print Assumptions C47_nil_no_options.
Print Assumptions C47_rejected_first.
