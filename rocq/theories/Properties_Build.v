(** Property C34, exactly: the types whose instruction can be built, and
    property C44, the other direction: only well-founded data is encoded. *)
From Verif Require Import Base IntModel OptionsModel TypesModel TypesFacts TagsModel MemModel FieldsModel InstrModel ExecModel ValueModel ExecMono ExecProof HostFacts MarshalThm DocSpec
  ExampleHost ExampleVals ExampleConst ExampleRead CycleThm Properties_Maps Properties_Members Properties_Conc.

(** ** C34 *)
(** A type (and whether its values are addressable) whose instruction contains
    that of another one: neither special nor with a method, and a pointer,
    slice, array or map of it.  Structs contain nothing: their instruction is
    found by name when the type is met again. *)
Inductive contains (H : host) : typ * bool -> typ * bool -> Prop :=
| co_ptr t ca e : DocSpec.plain H t ca -> under (h_env H) t = TPtr e -> contains H (t, ca) (e, true)
| co_slice t ca e : DocSpec.plain H t ca -> under (h_env H) t = TSlice e -> byte_elem H e = false -> contains H (t, ca) (e, true)
| co_array t ca n e : DocSpec.plain H t ca -> under (h_env H) t = TArray n e -> contains H (t, ca) (e, ca)
| co_key t ca k e : DocSpec.plain H t ca -> under (h_env H) t = TMap k e -> key_ok H k = true -> isString (h_env H) k = false -> contains H (t, ca) (k, false)
| co_elem t ca k e : DocSpec.plain H t ca -> under (h_env H) t = TMap k e -> key_ok H k = true -> contains H (t, ca) (e, false).

Lemma plain_instr H t ca : DocSpec.plain H t ca <-> go_type_instr t = None /\ marshaler_instr H t ca = None.
Proof.
  unfold DocSpec.plain. rewrite (marshaler_pick H t ca). split; intros [A B].
  - rewrite B. split; [destruct t; try discriminate; reflexivity | reflexivity].
  - split; [destruct t; try discriminate; reflexivity|]. destruct (method_of H t ca) as [[k hp]|]; [discriminate | reflexivity].
Qed.

Lemma compile_contains H n t ca q i : compile H n t ca q = Some i -> forall x, contains H (t, ca) x -> exists n' q' i', (n' < n)%nat /\ compile H n' (fst x) (snd x) q' = Some i'.
Proof.
  destruct n as [|n]; [discriminate|]. cbn [compile]. intros Hc x Hx.
  assert (P : DocSpec.plain H t ca) by (inversion Hx; assumption). apply plain_instr in P. destruct P as [P1 P2]. rewrite P1, P2 in Hc.
  assert (B : basic_instr H t q = None). { unfold basic_instr. inversion Hx as [? ? e _ U|? ? e _ U|? ? k e _ U|? ? k e _ U|? ? k e _ U]; subst; rewrite U; reflexivity. }
  rewrite B in Hc. inversion Hx as [? ? e _ U|? ? e _ U Hb|? ? k e _ U|? ? k e _ U K S|? ? k e _ U K]; subst; rewrite U in Hc; cbn [fst snd].
  - destruct (compile H n e true q) as [j|] eqn:Ej; [|discriminate]. exists n, q, j. split; [lia | exact Ej].
  - rewrite Hb in Hc. destruct (compile H n e true false) as [j|] eqn:Ej; [|discriminate]. exists n, false, j. split; [lia | exact Ej].
  - destruct (compile H n e ca false) as [j|] eqn:Ej; [|discriminate]. exists n, false, j. split; [lia | exact Ej].
  - rewrite K, S in Hc. cbn [negb] in Hc. destruct (compile H n k false false) as [j|] eqn:Ej; [|discriminate]. exists n, false, j. split; [lia | exact Ej].
  - rewrite K in Hc. cbn [negb] in Hc. destruct (if isString (h_env H) k then _ else _); [|discriminate]. destruct (compile H n e false false) as [j|] eqn:Ej; [|discriminate]. exists n, false, j. split; [lia | exact Ej].
Qed.

Lemma contains_compile H t ca q : (forall x, contains H (t, ca) x -> forall q, exists n i, compile H n (fst x) (snd x) q = Some i) -> exists n i, compile H n t ca q = Some i.
Proof.
  intros Hx. assert (Leaf : forall i, (forall f, compile H (S f) t ca q = Some i) -> exists n i, compile H n t ca q = Some i) by (intros i Hi; exists 1%nat, i; apply Hi).
  destruct (go_type_instr t) as [i|] eqn:Eg. { apply (Leaf i). intros f. cbn [compile]. rewrite Eg. reflexivity. }
  destruct (marshaler_instr H t ca) as [i|] eqn:Em. { apply (Leaf i). intros f. cbn [compile]. rewrite Eg, Em. reflexivity. }
  assert (P : DocSpec.plain H t ca) by (apply plain_instr; auto).
  destruct (basic_instr H t q) as [i|] eqn:Eb. { apply (Leaf i). intros f. cbn [compile]. rewrite Eg, Em, Eb. reflexivity. }
  destruct (under (h_env H) t) eqn:Eu; try (eexists 1%nat, _; cbn [compile]; rewrite Eg, Em, Eb, Eu; reflexivity).
  - destruct (Hx _ (co_ptr H t ca _ P Eu) q) as (n & i & Hi). exists (S n), (IPtr i). cbn [compile fst snd] in *. rewrite Eg, Em, Eb, Eu, Hi. reflexivity.
  - destruct (byte_elem H t0) eqn:Ebe; [eexists 1%nat, _; cbn [compile]; rewrite Eg, Em, Eb, Eu, Ebe; reflexivity|].
    destruct (Hx _ (co_slice H t ca _ P Eu Ebe) false) as (n & i & Hi). exists (S n). eexists. cbn [compile fst snd] in *. rewrite Eg, Em, Eb, Eu, Ebe, Hi. reflexivity.
  - destruct (Hx _ (co_array H t ca _ _ P Eu) false) as (k & i & Hi). exists (S k). eexists. cbn [compile fst snd] in *. rewrite Eg, Em, Eb, Eu, Hi. reflexivity.
  - destruct (key_ok H t0_1) eqn:Ek; [|eexists 1%nat, _; cbn [compile]; rewrite Eg, Em, Eb, Eu, Ek; reflexivity].
    destruct (Hx _ (co_elem H t ca _ _ P Eu Ek) false) as (n2 & i2 & Hi2). cbn [fst snd] in Hi2. destruct (isString (h_env H) t0_1) eqn:Es.
    + exists (S n2). eexists. cbn [compile]. rewrite Eg, Em, Eb, Eu, Ek, Es, Hi2. reflexivity.
    + destruct (Hx _ (co_key H t ca _ _ P Eu Ek Es) false) as (n1 & i1 & Hi1). cbn [fst snd] in Hi1. exists (S (Nat.max n1 n2)). eexists. cbn [compile]. rewrite Eg, Em, Eb, Eu, Ek, Es.
      rewrite (compile_mono H n1 _ _ _ _ _ Hi1) by lia. rewrite (compile_mono H n2 _ _ _ _ _ Hi2) by lia. reflexivity.
Qed.

(** The instruction of a type can be built exactly when following what types
    contain ends.  There is no assumption on the types. *)
Theorem C34_exact H t ca q : (exists n i, compile H n t ca q = Some i) <-> Acc (fun y x => contains H x y) (t, ca).
Proof.
  split.
  - intros (n & i & Hi). revert t ca q i Hi. induction n as [n IH] using (well_founded_induction Wf_nat.lt_wf). intros t ca q i Hi. constructor. intros [t' ca'] Hx.
    destruct (compile_contains H n t ca q i Hi _ Hx) as (n' & q' & i' & L & Hi'). eapply IH; eauto.
  - intros A. remember (t, ca) as x eqn:Ex. revert t ca q Ex. induction A as [x _ IH]. intros t ca q ->. apply contains_compile. intros [t' ca'] Hx q'. eapply IH; eauto.
Qed.

(** In particular no type with an endless chain of contents. *)
Theorem C34_chain H t ca q (s : nat -> typ * bool) : s O = (t, ca) -> (forall n, contains H (s n) (s (S n))) -> forall n, compile H n t ca q = None.
Proof.
  intros H0 Hs n. destruct (compile H n t ca q) as [i|] eqn:Ei; [exfalso | reflexivity].
  assert (A : Acc (fun y x => contains H x y) (t, ca)) by (apply (C34_exact H t ca q); eauto). rewrite <- H0 in A. clear - A Hs.
  remember (s O) as x eqn:Ex. assert (K : exists k, x = s k) by (exists O; exact Ex). clear Ex. induction A as [x _ IH]. destruct K as [k ->]. apply (IH (s (S k))); eauto.
Qed.
Print Assumptions C34_exact.
Print Assumptions C34_chain.

(** ** C44 *)
(** A place of memory to be encoded: its type, whether it is addressable, the
    string option and its address. *)
Definition place : Type := typ * bool * bool * loc.

(** Where the encoding of a place continues: the target of a pointer, the value
    in an interface, elements, entries and fields. *)
Inductive leads_to (H : host) (o : encOpts) (m : mem) : place -> place -> Prop :=
| lt_ptr t ca q p e a : DocSpec.plain H t ca -> under (h_env H) t = TPtr e -> rd_word m p = Some (WPtr a) -> leads_to H o m (t, ca, q, p) (e, true, q, LMem a)
| lt_iface t ca q p ms td w k b : DocSpec.plain H t ca -> under (h_env H) t = TIface ms -> rd_eface m p = Some (Some (td, w)) -> isInlined H k td = Some b ->
    leads_to H o m (t, ca, q, p) (td, is_ptr H td, false, if b then LTmp w 0 else LMem w)
| lt_slice t ca q p e a n i : DocSpec.plain H t ca -> under (h_env H) t = TSlice e -> byte_elem H e = false -> rd_header m p = Some (a, n) -> a <> 0 -> 0 <= i < n ->
    leads_to H o m (t, ca, q, p) (e, true, false, ladd (LMem a) (i * h_size H e))
| lt_array t ca q p e n i : DocSpec.plain H t ca -> under (h_env H) t = TArray n e -> byte_elem H e = false \/ has (o_flags o) byteArrayAsString = false -> 0 <= i < Z.of_nat n ->
    leads_to H o m (t, ca, q, p) (e, ca, false, ladd p (i * h_size H e))
| lt_entry t ca q p k e a es ka va : DocSpec.plain H t ca -> under (h_env H) t = TMap k e -> key_ok H k = true -> rd_word m p = Some (WPtr a) -> m a = Some (CMap es) -> In (ka, va) es ->
    leads_to H o m (t, ca, q, p) (e, false, false, LMem va)
| lt_sync ca q p es k td w n b : rd m p = Some (CSync es) -> In (k, Some (td, w)) es -> isInlined H n td = Some b ->
    leads_to H o m (TSyncMap, ca, q, p) (td, is_ptr H td, false, if b then LTmp w 0 else LMem w)
| lt_field t ca q p fs0 k fs f u fp : DocSpec.plain H t ca -> under (h_env H) t = TStruct fs0 -> fs0 <> [] -> structFields H k t = Some fs -> In f fs ->
    isDeniedField o (f_name f) = false -> type_by_index H t (f_index f) = Some u -> follow m (f_seq f) p = Some (Some fp) ->
    f_omitNil f = false \/ isNilable (h_env H) u = false \/ is_nil m fp = Some false -> f_omitEmpty f = false \/ is_empty H m u fp = Some false ->
    leads_to H o m (t, ca, q, p) (u, ca, f_quoted f && isBasicType (h_env H) (match under (h_env H) u with TPtr e => e | _ => u end), fp).

Section Leads.
  Variable H : host.
  Variable o : encOpts.
  Variable m : mem.
  Notation E := (h_env H).
  Notation plain := (DocSpec.plain H).

  Lemma bind_ok r k d : bind r k = Ret d None -> exists d', r = Ret d' None /\ k d' = Ret d None.
  Proof. destruct r as [d' [e|]| |]; cbn [bind]; try discriminate. eauto. Qed.

  Lemma elems_ok (ex : instr -> loc -> bytes -> res) ins es p n : forall i0 dst out, exec_elems ex ins es p n i0 dst = Ret out None ->
    forall i, i0 <= i < i0 + Z.of_nat n -> exists d d', ex ins (ladd p (i * es)) d = Ret d' None.
  Proof.
    induction n as [|n IH]; intros i0 dst out He i Hi; [lia|]. cbn [exec_elems] in He. apply bind_ok in He. destruct He as (d' & A & B).
    destruct (Z.eq_dec i i0) as [-> |Ne]; [eauto|]. apply (IH (i0 + 1) _ _ B). lia.
  Qed.

  Lemma unsorted_ok es : forall first dst out, exec_unsorted es first dst = Ret out None -> forall ke ve, In (ke, ve) es -> exists d d', ve d = Ret d' None.
  Proof.
    induction es as [|[ke0 ve0] es IH]; intros first dst out He ke ve []; cbn [exec_unsorted] in He; apply bind_ok in He; destruct He as (d1 & A & He); apply bind_ok in He; destruct He as (d2 & B & C).
    - injection H0 as -> ->. eauto.
    - eapply IH; eauto.
  Qed.

  Lemma fill_ok es : forall buf kvs r, fill es buf kvs = FOk r -> forall ke ve, In (ke, ve) es -> exists d d', ve d = Ret d' None.
  Proof.
    induction es as [|[ke0 ve0] es IH]; intros buf kvs r He ke ve Hin; [destruct Hin|]. cbn [fill] in He.
    destruct (ke0 buf) as [b1 [e|]| |] eqn:E1; try discriminate. destruct (length b1 <? length buf + 2)%nat; [discriminate|].
    destruct (ve0 (b1 ++ [58])) as [b2 [e|]| |] eqn:E2; try discriminate. destruct Hin as [[= -> ->]|Hin]; eauto.
  Qed.

  Lemma entries_ok es dst out : exec_entries H o es dst = Ret out None -> forall ke ve, In (ke, ve) es -> exists d d', ve d = Ret d' None.
  Proof.
    unfold exec_entries. intros He ke ve Hin. apply bind_ok in He. destruct He as (d & A & _). destruct (has (o_flags o) unsortedMap); [eapply unsorted_ok; eauto|].
    unfold exec_sorted in A. destruct (fill es [] []) eqn:F; try discriminate. eapply fill_ok; eauto.
  Qed.

  Lemma fields_ok (ex : instr -> loc -> bytes -> res) fs p : forall first dst out, exec_fields H o m ex fs p first dst = Ret out None ->
    forall f fp, In f fs -> isDeniedField o (sf_name f) = false -> follow m (sf_seq f) p = Some (Some fp) -> (if sf_omitNil f then is_nil m fp else Some false) = Some false ->
      match sf_empty f with Some t => is_empty H m t fp | None => Some false end = Some false -> exists d d', ex (sf_instr f) fp d = Ret d' None.
  Proof.
    induction fs as [|f0 fs IH]; intros first dst out He f fp Hin Hd Hf Hn Hm; [destruct Hin|]. cbn [exec_fields] in He. destruct Hin as [-> |Hin].
    - rewrite Hd, Hf in He. cbn [onSome] in He. rewrite Hn in He. cbn [onSome] in He. rewrite Hm in He. cbn [onSome] in He. apply bind_ok in He. destruct He as (d' & A & _). eauto.
    - assert (Q : exists first dst, exec_fields H o m ex fs p first dst = Ret out None).
      { destruct (isDeniedField o (sf_name f0)); [eauto|]. destruct (follow m (sf_seq f0) p) as [[fp0|]|]; cbn [onSome] in He; try discriminate; [|eauto].
        destruct (if sf_omitNil f0 then _ else _) as [[|]|]; cbn [onSome] in He; try discriminate; [eauto|].
        destruct (match sf_empty f0 with Some t => _ | None => _ end) as [[|]|]; cbn [onSome] in He; try discriminate; [eauto|].
        apply bind_ok in He. destruct He as (d' & _ & B). eauto. }
      destruct Q as (first' & dst' & Q). eapply IH; eauto.
  Qed.

  Lemma build_in n t ca f u : forall fs ss, build_fields H n t ca fs = Some ss -> In f fs -> type_by_index H t (f_index f) = Some u ->
    exists i, compile H n u ca (f_quoted f && isBasicType E (match under E u with TPtr e => e | _ => u end)) = Some i /\
      In (mkSF (f_name f) (f_seq f) (f_omitNil f && isNilable E u) (f_omitNil f && (h_impl H u MJson || h_impl H (TPtr u) MJson)) (if f_omitEmpty f then Some u else None) i) ss.
  Proof.
    induction fs as [|f0 fs IH]; intros ss Hb Hin Hu; [destruct Hin|]. cbn [build_fields] in Hb. destruct (build_field H n t ca f0) as [s|] eqn:E0; [|discriminate].
    destruct (build_fields H n t ca fs) as [ss'|] eqn:E1; [|discriminate]. injection Hb as <-. destruct Hin as [-> |Hin].
    - unfold build_field in E0. rewrite Hu in E0. destruct (compile H n u ca _) as [i|] eqn:Ei; [|discriminate]. injection E0 as <-. exists i. split; [reflexivity | left; reflexivity].
    - destruct (IH ss' eq_refl Hin Hu) as (i & A & B). exists i. split; [exact A | right; exact B].
  Qed.

  Definition encoded (N : nat) (x : place) : Prop := let '(t, ca, q, p) := x in exists k i d d', compile H k t ca q = Some i /\ exec H o m N i p d = Ret d' None.

  Lemma cached_encoded f td w d d' n b : (match cached_instr H f td with Some i => exec H o m f i (LMem w) d | None => OutOfFuel end) = Ret d' None -> isInlined H n td = Some b ->
    exists N, (N <= f)%nat /\ encoded N (td, is_ptr H td, false, if b then LTmp w 0 else LMem w).
  Proof.
    unfold cached_instr. intros He Hb. destruct (compile H f td (is_ptr H td) false) as [i|] eqn:Ei; [|discriminate]. destruct (isInlined H f td) as [b'|] eqn:Eb; [|discriminate].
    assert (b = b'). { apply (isInlined_mono H n (Nat.max n f)) in Hb; [|lia]. apply (isInlined_mono H f (Nat.max n f)) in Eb; [|lia]. congruence. } subst b'.
    destruct b.
    - destruct f as [|f]; [discriminate|]. cbn [exec] in He. exists f. split; [lia|]. exists (S f), i, d, d'. auto.
    - exists f. split; [lia|]. exists f, i, d, d'. auto.
  Qed.

  Lemma leads_encoded N x y : encoded N x -> leads_to H o m x y -> exists N', (N' < N)%nat /\ encoded N' y.
  Proof.
    intros Hx Hl. destruct N as [|f]; [destruct x as [[[t ca] q] p]; destruct Hx as (k & i & d & d' & _ & Hx); discriminate|].
    inversion Hl as [t ca q p e a P U R|t ca q p ms td w n b P U R I|t ca q p e a n j P U B R A J|t ca q p e n j P U B J|t ca q p kt e a es ka va P U K R A J|ca q p es key td w n b R J I|t ca q p fs0 n fs fd u fp P U NE F J D T W ON OE];
      subst; destruct Hx as (k & i & d & d' & Hc & He).
    all: destruct k as [|k]; [discriminate|]; cbn [compile] in Hc.
    all: try (apply plain_instr in P; destruct P as [P1 P2]; rewrite P1, P2 in Hc; unfold basic_instr in Hc; rewrite U in Hc).
    - destruct (compile H k e true q) as [j|] eqn:Ej; [|discriminate]. injection Hc as <-. cbn [exec] in He. rewrite R in He. exists f. split; [lia|]. exists k, j, d, d'. auto.
    - injection Hc as <-. cbn [exec] in He. rewrite R in He. cbn [onSome] in He. destruct (cached_encoded f td w d d' n b He I) as (N & L & X). exists N. split; [lia | exact X].
    - rewrite B in Hc. destruct (compile H k e true false) as [i0|] eqn:Ej; [|discriminate]. injection Hc as <-. cbn [exec] in He. rewrite R in He. cbn [onSome] in He.
      replace (a =? 0) with false in He by lia. replace (n =? 0) with false in He by lia. unfold exec_array in He. cbn [andb] in He.
      destruct (elems_ok _ _ _ _ _ _ _ _ He j) as (d1 & d2 & X); [lia|]. exists f. split; [lia|]. exists k, i0, d1, d2. auto.
    - destruct (compile H k e ca false) as [i0|] eqn:Ej; [|discriminate]. injection Hc as <-. cbn [exec] in He. unfold exec_array in He.
      replace (byte_elem H e && has (o_flags o) byteArrayAsString) with false in He by (destruct B as [-> | ->]; [reflexivity | symmetry; apply andb_false_r]).
      destruct (elems_ok _ _ _ _ _ _ _ _ He j) as (d1 & d2 & X); [lia|]. exists f. split; [lia|]. exists k, i0, d1, d2. auto.
    - rewrite K in Hc. cbn [negb] in Hc. destruct (if isString E kt then _ else _) as [ki|]; [|discriminate]. destruct (compile H k e false false) as [i0|] eqn:Ej; [|discriminate]. injection Hc as <-.
      cbn [exec] in He. rewrite R, A in He. destruct (length es =? 0)%nat eqn:L; [destruct es; [destruct J | discriminate]|].
      destruct (entries_ok _ _ _ He (exec H o m f (key_wrap H kt ki) (LMem ka)) (exec H o m f i0 (LMem va))) as (d1 & d2 & X).
      { unfold kvlocs. apply in_map_iff. exists (ka, va). auto. }
      exists f. split; [lia|]. exists k, i0, d1, d2. auto.
    - injection Hc as <-. cbn [exec] in He. rewrite R in He.
      eapply entries_ok in He; [|apply in_map_iff; exists (key, Some (td, w)); split; [reflexivity | exact J]]. destruct He as (d1 & d2 & X). cbn [fst snd sync_val] in X.
      destruct (cached_encoded f td w d1 d2 n b X I) as (N & L & Y). exists N. split; [lia | exact Y].
    - injection Hc as <-. cbn [exec] in He. unfold struct_body in He. destruct (fields_of H t) as [|f0 fr] eqn:Ef.
      + unfold fields_of in Ef. rewrite U in Ef. congruence.
      + destruct (structFields H f t) as [fs'|] eqn:Es; [|discriminate]. assert (fs' = fs).
        { apply (structFields_mono H n (Nat.max n f)) in F; [|lia]. apply (structFields_mono H f (Nat.max n f)) in Es; [|lia]. congruence. } subst fs'.
        destruct (build_fields H f t ca fs) as [ss|] eqn:Eb; [|discriminate]. destruct (build_in f t ca fd u fs ss Eb J T) as (i0 & Hi & Hin).
        destruct (fields_ok _ _ _ _ _ _ He _ fp Hin D W) as (d1 & d2 & X); cbn [sf_omitNil sf_empty sf_instr] in *.
        * destruct ON as [-> |[-> | ->]]; [reflexivity | rewrite andb_false_r; reflexivity | destruct (f_omitNil fd && _); reflexivity].
        * destruct OE as [-> | OE]; [reflexivity | destruct (f_omitEmpty fd); [exact OE | reflexivity]].
        * exists f. split; [lia|]. exists f, i0, d1, d2. auto.
  Qed.

  Theorem encoded_acc N : forall x, encoded N x -> Acc (fun y x => leads_to H o m x y) x.
  Proof.
    induction N as [N IH] using (well_founded_induction Wf_nat.lt_wf). intros x Hx. constructor. intros y Hy.
    destruct (leads_encoded N x y Hx Hy) as (N' & L & Y). eapply IH; eauto.
  Qed.
End Leads.

(** Where the encoding of an interface value starts. *)
Definition start (H : host) (t : typ) (w : Z) (x : place) : Prop := exists k b, isInlined H k t = Some b /\ x = (t, is_ptr H t, false, if b then LTmp w 0 else LMem w).

(** Marshal succeeds only when following the data ends: a value that leads back
    to itself never gives any output, whatever the types, methods and memory. *)
Theorem C44_only_acyclic H m t w opts o out x : call_opts opts = Some o -> marshal_returns H m (Some (t, w)) opts (MOk out) -> start H t w x ->
  Acc (fun y x => leads_to H o m x y) x.
Proof.
  intros Ho (N & E & _) (k & b & Hb & ->). unfold MarshalOpts in E. rewrite (check_opts_ok _ _ Ho) in E. unfold marshal_json, append_json in E. cbn [fst snd] in E.
  destruct (match cached_instr H N t with Some i => exec H o m N i (LMem w) [] | None => OutOfFuel end) as [d' [e|]| |] eqn:X; try discriminate.
  destruct (cached_encoded H o m N t w [] d' k b X Hb) as (N' & _ & Y). eapply encoded_acc; eauto.
Qed.

(** A chain of places without end. *)
Theorem C44_endless H m t w opts o (s : nat -> place) : call_opts opts = Some o -> start H t w (s O) -> (forall n, leads_to H o m (s n) (s (S n))) ->
  forall out, ~ marshal_returns H m (Some (t, w)) opts (MOk out).
Proof.
  intros Ho Hs Hn out R. assert (A := C44_only_acyclic H m t w opts o out (s O) Ho R Hs). remember (s O) as x eqn:Ex.
  assert (K : exists k, x = s k) by (exists O; exact Ex). clear Ex Hs. induction A as [x _ IH]. destruct K as [k ->]. apply (IH (s (S k))); eauto.
Qed.
Print Assumptions C44_only_acyclic.
Print Assumptions C44_endless.

(** ** C29 *)
(** The places the encoding gets to. *)
Inductive gets_to (H : host) (o : encOpts) (m : mem) (x : place) : place -> Prop :=
| gt_here : gets_to H o m x x
| gt_next y z : gets_to H o m x y -> leads_to H o m y z -> gets_to H o m x z.

Lemma gets_encoded H o m N x y : encoded H o m N x -> gets_to H o m x y -> exists N', encoded H o m N' y.
Proof. intros Hx G. induction G as [|y z _ [N' IH] L]; [eauto|]. destruct (leads_encoded H o m N' y z IH L) as (N2 & _ & Z). eauto. Qed.

(** A value in an interface with methods, none of which encodes it, is never
    encoded, wherever it is: Marshal does not succeed. *)
Theorem C29_interface_always H m t w opts o x t' ca q p ms td : call_opts opts = Some o -> start H t w x -> gets_to H o m x (t', ca, q, p) ->
  DocSpec.plain H t' ca -> under (h_env H) t' = TIface (Some ms) -> rd m p = Some (CTab td) -> forall out, ~ marshal_returns H m (Some (t, w)) opts (MOk out).
Proof.
  intros Ho (k & b & Hb & ->) G P U R out (N & E & _). unfold MarshalOpts in E. rewrite (check_opts_ok _ _ Ho) in E. unfold marshal_json, append_json in E. cbn [fst snd] in E.
  destruct (match cached_instr H N t with Some i => exec H o m N i (LMem w) [] | None => OutOfFuel end) as [d' [e|]| |] eqn:X; try discriminate.
  destruct (cached_encoded H o m N t w [] d' k b X Hb) as (N' & _ & Y). destruct (gets_encoded H o m N' _ _ Y G) as (N2 & n & i & d & d2 & C & Z).
  destruct n as [|n]; [discriminate|]. cbn [compile] in C. apply plain_instr in P. destruct P as [P1 P2]. rewrite P1, P2 in C. unfold basic_instr in C. rewrite U in C. injection C as <-.
  destruct N2 as [|N2]; [discriminate|]. cbn [exec] in Z. unfold rd_eface in Z. rewrite R in Z. discriminate.
Qed.
Print Assumptions C29_interface_always.

(** ** Examples *)
(** []fmt.Stringer{nil, 3}: the second element. *)
Definition two_t : typ := TSlice (TIface (Some 0%nat)).
Definition two_v : val := VSlice [VNil; VIface (TInt KInt) (VInt 3)].
Example C29_ex_interface : forall out, ~ marshal_returns mapH (mem_of mapH two_t two_v) (Some (two_t, word_of mapH two_t two_v)) [] (MOk out).
Proof.
  set (m := mem_of mapH two_t two_v). set (w := word_of mapH two_t two_v).
  assert (Hd : exists a, rd_header m (LMem w) = Some (a, 2) /\ a <> 0 /\ rd m (LMem (a + 16)) = Some (CTab (TInt KInt))) by (vm_compute; eexists; repeat split; discriminate).
  destruct Hd as (a & R & A & B).
  apply (C29_interface_always mapH m two_t w [] default_opts (two_t, false, false, LMem w) (TIface (Some 0%nat)) true false (LMem (a + 16)) 0%nat (TInt KInt)); try reflexivity; [| |split; reflexivity | exact B].
  - exists 5%nat, false. split; reflexivity.
  - eapply gt_next; [apply gt_here|]. apply (lt_slice mapH default_opts m two_t false false (LMem w) (TIface (Some 0%nat)) a 2 1); [split; reflexivity | reflexivity | reflexivity | exact R | exact A | lia].
Qed.

(** type T []T, and the same type with a MarshalJSON method *)
Example C34_ex_chain : forall n, compile selfH n (TNamed 0) false false = None.
Proof.
  apply (C34_chain selfH (TNamed 0) false false (fun n => match n with O => (TNamed 0, false) | S _ => (TNamed 0, true) end)); [reflexivity|].
  intros n. destruct n; (eapply co_slice; [split; reflexivity | reflexivity | reflexivity]).
Qed.
Definition methodH : host := constH [TSlice (TNamed 0)] (fun t k => match t, k with TNamed 0, MJson => true | _, _ => false end) null_result.
Example C34_ex_method : exists n i, compile methodH n (TNamed 0) false false = Some i.
Proof. apply C34_exact. constructor. intros y Hy. exfalso. inversion Hy as [t ca e P|t ca e P|t ca n e P|t ca k e P|t ca k e P]; subst; destruct P as [_ P]; discriminate P. Qed.

(** n := Node{Val: 1}; n.Next = &n *)
Example C44_ex_endless : forall out, ~ marshal_returns exH cyc_mem (Some (TPtr Node, 1000)) [] (MOk out).
Proof.
  apply (C44_endless exH cyc_mem (TPtr Node) 1000 [] default_opts (fun n => match n with O => (TPtr Node, true, false, LTmp 1000 0) | S k => if Nat.even k then (Node, true, false, LMem 1000) else (TPtr Node, true, false, LMem 1008) end)).
  - reflexivity.
  - exists 5%nat, true. split; reflexivity.
  - intros [|n]; [eapply lt_ptr; [split; reflexivity | reflexivity | reflexivity]|]. rewrite Nat.even_succ, <- Nat.negb_even. destruct (Nat.even n); cbn [negb].
    + set (fs := match structFields exH 10 Node with Some fs => fs | None => [] end).
      set (f := nth 1 fs (mkField [] false false false false [] [])).
      refine (lt_field exH default_opts cyc_mem Node true false (LMem 1000) _ 10 fs f (TPtr Node) (LMem 1008) _ _ _ _ _ _ _ _ _ _); try reflexivity; try (vm_compute; reflexivity).
      * split; reflexivity.
      * discriminate.
      * vm_compute. auto.
      * right; right. vm_compute. reflexivity.
      * right. vm_compute. reflexivity.
    + eapply lt_ptr; [split; reflexivity | reflexivity | reflexivity].
Qed.
(** The document of ExampleHost ends. *)
Example C44_ex_acyclic : exists x, start exH Node 1000 x /\ Acc (fun y x => leads_to exH default_opts ex_mem x y) x.
Proof.
  exists (Node, false, false, LMem 1000). assert (S0 : start exH Node 1000 (Node, false, false, LMem 1000)) by (exists 5%nat, false; split; reflexivity).
  split; [exact S0 | exact (C44_only_acyclic exH ex_mem Node 1000 [] default_opts ex_json _ eq_refl ex_marshal S0)].
Qed.
