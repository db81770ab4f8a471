(** C17: the two lists count only by the names they conceal. *)
From Verif Require Import Base Utf8 JsonSpec NumberModel OptionsModel EscapeModel CompactModel IntModel TypesModel TypesFacts TagsModel TimeModel
  FloatModel LeafModel MemModel FieldsModel InstrModel ExecModel ValueModel ExecMono MarshalThm DocSpec PartFacts ApiFacts Properties_Options.

(** The same settings, but for the lists; these conceal the same names. *)
Definition same_selection (opts opts' : list (option option_)) : Prop :=
  (forall x f, In (x, f) flag_options -> (In (Some x) opts <-> In (Some x) opts')) /\
  (forall a, last_set OTimeLayout opts a <-> last_set OTimeLayout opts' a) /\
  (forall a, last_set ODurationFormat opts a <-> last_set ODurationFormat opts' a) /\
  (forall a, last_set OWithContext opts a <-> last_set OWithContext opts' a) /\
  (forall n, concealed opts n <-> concealed opts' n).

Lemma config_selection opts opts' : same_selection opts opts' ->
  o_ctx (config opts) = o_ctx (config opts') /\ o_timeLayout (config opts) = o_timeLayout (config opts') /\ o_durationFmt (config opts) = o_durationFmt (config opts') /\
  o_flags (config opts) = o_flags (config opts') /\ forall n, isDeniedField (config opts) n = isDeniedField (config opts') n.
Proof.
  intros (F & L & D & C & N). destruct (C16_last_wins opts) as ((L1 & L2) & (D1 & D2) & (C1 & C2) & _).
  destruct (C16_last_wins opts') as ((L1' & L2') & (D1' & D2') & (C1' & C2') & _).
  assert (T : forall {X} (mk : X -> option_), (forall a, last_set mk opts a <-> last_set mk opts' a) -> never_set mk opts -> never_set mk opts').
  { intros X mk Hm Hn. rewrite never_last in Hn |- *. intros a Ha. apply (Hn a), Hm, Ha. }
  assert (E1 : o_timeLayout (config opts) = o_timeLayout (config opts')).
  { destruct (layout_dec opts) as [[a Ha]|Hn]; [rewrite (L1 a Ha), (L1' a) by (apply L, Ha); reflexivity | rewrite (L2 Hn), (L2' (T _ _ L Hn)); reflexivity]. }
  assert (E2 : o_durationFmt (config opts) = o_durationFmt (config opts')).
  { destruct (dur_dec opts) as [[a Ha]|Hn]; [rewrite (D1 a Ha), (D1' a) by (apply D, Ha); reflexivity | rewrite (D2 Hn), (D2' (T _ _ D Hn)); reflexivity]. }
  assert (E3 : o_ctx (config opts) = o_ctx (config opts')).
  { destruct (ctx_dec opts) as [[a Ha]|Hn]; [rewrite (C1 a Ha), (C1' a) by (apply C, Ha); reflexivity | rewrite (C2 Hn), (C2' (T _ _ C Hn)); reflexivity]. }
  assert (E6 : o_flags (config opts) = o_flags (config opts')).
  { apply Z.bits_inj'. intros k Hk. rewrite <- (Z2Nat.id k) by lia. destruct (le_lt_dec 11 (Z.to_nat k)) as [Hi|Hi].
    - unfold config. rewrite !high_bits; try assumption; try reflexivity; cbn [default_opts o_flags]; apply Z.bits_0.
    - assert (X : exists x, bit_of x = Some (Z.to_nat k)).
      { assert (Y : In (Z.to_nat k) [0; 1; 2; 3; 4; 5; 6; 7; 8; 9; 10]%nat) by (cbn; lia).
        repeat (destruct Y as [Y|Y]; [rewrite <- Y; first
          [exists OUnixTime; reflexivity | exists OUnsortedMap; reflexivity | exists ORawByteSlice; reflexivity | exists OByteArrayAsString; reflexivity | exists ONilMapEmpty; reflexivity | exists ONilSliceEmpty; reflexivity
          | exists ONoStringEscaping; reflexivity | exists ONoHTMLEscaping; reflexivity | exists ONoUTF8Coercion; reflexivity | exists ONoCompact; reflexivity | exists ONoNumberValidation; reflexivity]|]). destruct Y. }
      destruct X as (x & Hx). destruct (flags_bit_of x _ Hx) as (f & Hf). destruct (bit_of_flags x f Hf) as (i & Hi1 & Hi2). assert (i = Z.to_nat k) by congruence. subst i.
      assert (Q1 := C16_flags opts x f Hf). assert (Q2 := C16_flags opts' x f Hf). rewrite Hi2, has_bit in Q1, Q2. specialize (F x f Hf).
      destruct (Z.testbit (o_flags (config opts)) _), (Z.testbit (o_flags (config opts')) _); try reflexivity.
      + symmetry. apply Q2, F, Q1. reflexivity.
      + apply Q1, F, Q2. reflexivity. }
  split; [exact E3|]. split; [exact E1|]. split; [exact E2|]. split; [exact E6|]. intros n.
  assert (A := isDeniedField_spec (config opts) n). assert (B := isDeniedField_spec (config opts') n). rewrite denied_concealed in A, B. specialize (N n).
  destruct (isDeniedField (config opts) n), (isDeniedField (config opts') n); try reflexivity; exfalso.
  - assert (X : false = true) by tauto. discriminate.
  - assert (X : false = true) by tauto. discriminate.
Qed.

(** ** Running instructions under two configurations that differ in the lists *)
Section Lists.
  Variable H : host.
  Variable m : mem.
  Variables (c : option Z) (tl : bytes) (df : Z) (fl : bitmask) (a1 d1 a2 d2 : option (list bytes)).
  Notation o := (mkOpts c tl df fl a1 d1).
  Notation o' := (mkOpts c tl df fl a2 d2).
  Hypothesis En : forall n, isDeniedField o n = isDeniedField o' n.

  Section Ext.
    Variables ex ex' : instr -> loc -> bytes -> res.
    Hypothesis X : forall i p d, ex i p d = ex' i p d.

    Lemma exec_fields_lists : forall fs p first dst, exec_fields H o m ex fs p first dst = exec_fields H o' m ex' fs p first dst.
    Proof.
      induction fs as [|f fs IH]; intros p first dst; [reflexivity|]. cbn [exec_fields]. rewrite En. destruct (isDeniedField o' (sf_name f)); [apply IH|].
      destruct (follow m (sf_seq f) p) as [[fp|]|]; cbn [onSome]; [|apply IH|reflexivity].
      destruct (if sf_omitNil f then is_nil m fp else Some false) as [[|]|]; cbn [onSome]; [apply IH| |reflexivity].
      destruct (match sf_empty f with Some t => is_empty H m t fp | None => Some false end) as [[|]|]; cbn [onSome]; [apply IH| |reflexivity].
      cbv zeta. rewrite X. cbn [o_flags]. destruct (ex' _ _ _) as [d [e|]| |]; cbn [bind]; try reflexivity. apply IH.
    Qed.
    Lemma exec_elems_lists ins es p : forall n i dst, exec_elems ex ins es p n i dst = exec_elems ex' ins es p n i dst.
    Proof. induction n as [|n IH]; intros i dst; [reflexivity|]. cbn [exec_elems]. rewrite X. destruct (ex' _ _ _) as [d [e|]| |]; cbn [bind]; try reflexivity. apply IH. Qed.
    Lemma exec_array_lists ins es n isba p dst : exec_array o m ex ins es n isba p dst = exec_array o' m ex' ins es n isba p dst.
    Proof. unfold exec_array. cbn [o_flags]. destruct (isba && has fl byteArrayAsString); [reflexivity | apply exec_elems_lists]. Qed.
  End Ext.

  Definition same_entry (x y : entry) : Prop := (forall d, fst x d = fst y d) /\ (forall d, snd x d = snd y d).
  Lemma unsorted_lists es es' : Forall2 same_entry es es' -> forall first dst, exec_unsorted es first dst = exec_unsorted es' first dst.
  Proof.
    induction 1 as [|[k v] [k' v'] es es' [A B] _ IH]; intros first dst; [reflexivity|]. cbn [exec_unsorted fst snd] in *. rewrite A. destruct (k' _) as [d [e|]| |]; cbn [bind]; try reflexivity.
    rewrite B. destruct (v' _) as [d' [e|]| |]; cbn [bind]; try reflexivity. apply IH.
  Qed.
  Lemma fill_lists es es' : Forall2 same_entry es es' -> forall buf kvs, fill es buf kvs = fill es' buf kvs.
  Proof.
    induction 1 as [|[k v] [k' v'] es es' [A B] _ IH]; intros buf kvs; [reflexivity|]. cbn [fill fst snd] in *. cbv zeta. rewrite A. destruct (k' _) as [d [e|]| |]; try reflexivity.
    destruct (length d <? length buf + 2)%nat; [reflexivity|]. rewrite B. destruct (v' _) as [d' [e|]| |]; try reflexivity. apply IH.
  Qed.
  Lemma entries_lists es es' dst : Forall2 same_entry es es' -> exec_entries H o es dst = exec_entries H o' es' dst.
  Proof. intros F. unfold exec_entries. cbn [o_flags]. destruct (has fl unsortedMap); [rewrite (unsorted_lists _ _ F); reflexivity|]. unfold exec_sorted. rewrite (fill_lists _ _ F). reflexivity. Qed.
  Lemma map_entry {A} (f g : A -> entry) l : (forall x, same_entry (f x) (g x)) -> Forall2 same_entry (map f l) (map g l).
  Proof. intros X. induction l; constructor; auto. Qed.

  Lemma exec_lists : forall n i p dst, exec H o m n i p dst = exec H o' m n i p dst.
  Proof.
    induction n as [|n IH]; intros i p dst; [reflexivity|].
    assert (Any : forall t w d, match cached_instr H n t with Some i => exec H o m n i (LMem w) d | None => OutOfFuel end = match cached_instr H n t with Some i => exec H o' m n i (LMem w) d | None => OutOfFuel end)
      by (intros t w d; destruct (cached_instr H n t); [apply IH | reflexivity]).
    destruct i; cbn [exec]; try reflexivity.
    - destruct (rd_eface m p) as [[[t w]|]|]; cbn [onSome]; try reflexivity. apply Any.
    - destruct (rd m p) as [[]|]; try reflexivity. apply entries_lists, map_entry. intros [k v]. split; intros d; cbn [fst snd].
      + destruct k as [[kt w]|]; [|reflexivity]. cbn [sync_key]. cbv zeta. destruct (negb (isString (h_env H) kt) && _ && _); [reflexivity|].
        destruct (isString (h_env H) kt); [reflexivity|]. rewrite Any. reflexivity.
      + destruct v as [[vt w]|]; [|reflexivity]. cbn [sync_val]. apply Any.
    - destruct (rd_word m p) as [[]|]; try reflexivity. apply IH.
    - destruct (struct_body H n _ _); [|reflexivity]. apply exec_fields_lists. exact IH.
    - apply exec_array_lists. exact IH.
    - destruct (rd_header m p) as [[a l]|]; cbn [onSome]; [|reflexivity]. destruct (a =? 0); [reflexivity|]. destruct (l =? 0); [reflexivity|]. apply exec_array_lists. exact IH.
    - destruct (rd_word m p) as [[]|]; try reflexivity. destruct (m a) as [[]|]; try reflexivity. destruct (length _ =? 0)%nat; [reflexivity|].
      apply entries_lists. unfold kvlocs. apply map_entry. intros [k v]. split; intros d; apply IH.
    - destruct p; [apply IH | reflexivity].
    - rewrite IH. reflexivity.
    - destruct (is_nil m p) as [[|]|]; cbn [onSome]; try reflexivity. apply IH.
  Qed.
End Lists.

(** Whatever memory and value: lists that conceal the same names give the same
    results.  Order and repetition of the names do not matter; a name that both
    lists have is concealed. *)
Theorem C17_lists H m v opts opts' : same_selection opts opts' ->
  (forall r, marshal_returns H m v opts r <-> marshal_returns H m v opts' r) /\
  (forall dst r, append_returns H m dst v opts r <-> append_returns H m dst v opts' r).
Proof.
  intros S. destruct (config_selection _ _ S) as (E1 & E2 & E3 & E4 & E5).
  assert (V : validate (config opts) = validate (config opts')) by (unfold validate; rewrite E1, E2, E3; reflexivity).
  assert (X : forall n v d, append_json H (config opts) m n v d = append_json H (config opts') m n v d).
  { intros n x d. unfold append_json. destruct (cached_instr H n (fst x)); [|reflexivity].
    destruct (config opts) as [c tl df fl a1 d1], (config opts') as [c' tl' df' fl' a2 d2]. cbn [o_ctx o_timeLayout o_durationFmt o_flags] in *. subst c' tl' df' fl'. apply exec_lists. exact E5. }
  split; [intros r | intros dst r]; unfold marshal_returns, append_returns, MarshalOpts, AppendOpts; rewrite !check_opts_config, <- V; destruct v as [x|]; try tauto; destruct (validate (config opts)); try tauto.
  - unfold marshal_json. split; intros (n & A & B); exists n; (split; [|exact B]); [rewrite <- X | rewrite X]; exact A.
  - split; intros (n & A & B); exists n; (split; [|exact B]); [rewrite <- X | rewrite X]; exact A.
Qed.

(** DenyList("a") with AllowList("b", "a", "b") and AllowList("b") alone. *)
Example C17_ex_lists : same_selection [Some (ODenyList [lit "a"]); Some (OAllowList [lit "b"; lit "a"; lit "b"])] [Some (OAllowList [lit "b"])].
Proof.
  assert (L : forall {A} (mk : A -> option_) opts a, last_set mk opts a -> In (Some (mk a)) opts) by (intros A mk opts a (pre & post & -> & _); apply in_elt).
  split; [|split; [|split; [|split]]].
  - intros x f Hf. split; intros I; exfalso; [destruct I as [I|[I|[]]] | destruct I as [I|[]]]; injection I as <-;
      repeat (destruct Hf as [Hf|Hf]; [discriminate Hf|]); destruct Hf.
  - intros a. split; intros I; apply L in I; exfalso; [destruct I as [I|[I|[]]] | destruct I as [I|[]]]; discriminate I.
  - intros a. split; intros I; apply L in I; exfalso; [destruct I as [I|[I|[]]] | destruct I as [I|[]]]; discriminate I.
  - intros a. split; intros I; apply L in I; exfalso; [destruct I as [I|[I|[]]] | destruct I as [I|[]]]; discriminate I.
  - intros n. rewrite <- !denied_concealed, <- !isDeniedField_spec. unfold isDeniedField, config. cbn [apply apply1 o_deny o_allow default_opts fieldListToSet]. unfold mem_bytes. cbn [existsb].
    assert (D : lit "a" <> lit "b") by discriminate.
    destruct (bytes_eqb n (lit "a")) eqn:A; [|cbn [orb]; destruct (bytes_eqb n (lit "b")); cbn [orb negb]; tauto].
    apply bytes_eqb_eq in A. subst n. cbn. tauto.
Qed.
(** Hiding a and showing only b differ on c. *)
Example C17_ex_different : ~ same_selection [Some (ODenyList [lit "a"])] [Some (OAllowList [lit "b"])].
Proof.
  intros (_ & _ & _ & _ & N). specialize (N (lit "c")). rewrite <- !denied_concealed, <- !isDeniedField_spec in N. vm_compute in N. destruct N as [_ N]. discriminate (N eq_refl).
Qed.

Print Assumptions C17_lists.
