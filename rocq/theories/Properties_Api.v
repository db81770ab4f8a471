(** C27-C30, C35, C41, C44: calls as a whole. *)
From Verif Require Import Base Utf8 JsonSpec OptionsModel EscapeModel EscapeProof JsonParse IntModel TypesModel TypesFacts CalendarSpec TimeModel TimeProof FloatModel FloatProof LeafModel LeafProof MemModel FieldsModel
  FieldsProof InstrModel ExecModel ValueModel ExecMono ExecLeaf ExecProof HostFacts VencFacts MarshalThm DocSpec EntriesFacts DocLeaf PartFacts DocProof SafeProof ApiFacts PartsThm ShapeThm CallFacts
  AppendThm CycleThm ExampleHost ExampleConst ExampleRead Properties_Options Properties_Strings Properties_Numbers Properties_Members Properties_Maps.

(** ** C27: Append and Marshal agree
    On any memory and any argument, held there or not: both return or neither
    does, and what Append returns is dst followed by what Marshal returns. *)
Theorem C27_append_marshal H m v opts dst : mem_bytes_ok m -> methods_append H m -> (v <> None -> call_opts opts <> None) ->
  (forall b, append_returns H m dst v opts (Ret b None) <-> exists b', b = dst ++ b' /\ marshal_returns H m v opts (MOk b')) /\
  (forall e, (exists b, append_returns H m dst v opts (Ret b (Some e))) <-> marshal_returns H m v opts (MErr e)) /\
  (append_returns H m dst v opts Crash <-> marshal_returns H m v opts MCrash).
Proof.
  intros MB MA Ho. unfold append_returns, marshal_returns.
  assert (A : forall N, AppendOpts H N m dst v opts = app_res dst (AppendOpts H N m [] v opts)) by (intros N; apply AppendOpts_dst; assumption).
  assert (B : forall N, MarshalOpts H N m v opts = mres_of (AppendOpts H N m [] v opts)) by (intros N; apply MarshalOpts_append; assumption).
  split; [|split].
  - intros b. split.
    + intros (N & E & _). rewrite A in E. destruct (AppendOpts H N m [] v opts) as [b' e| |] eqn:X; try discriminate. injection E as <- ->.
      exists b'. split; [reflexivity|]. exists N. rewrite B, X. split; [reflexivity | discriminate].
    + intros (b' & -> & N & E & _). exists N. rewrite A. rewrite B in E. destruct (AppendOpts H N m [] v opts) as [b0 [e|]| |]; try discriminate. injection E as ->. split; [reflexivity | discriminate].
  - intros e. split.
    + intros (b & N & E & _). rewrite A in E. exists N. rewrite B. destruct (AppendOpts H N m [] v opts) as [b' e'| |]; try discriminate. injection E as <- ->. split; [reflexivity | discriminate].
    + intros (N & E & _). rewrite B in E. destruct (AppendOpts H N m [] v opts) as [b0 [e'|]| |] eqn:X; try discriminate. injection E as ->. exists (dst ++ b0), N. rewrite A, X. split; [reflexivity | discriminate].
  - split; intros (N & E & _); exists N.
    + rewrite A in E. rewrite B. destruct (AppendOpts H N m [] v opts); try discriminate. split; [reflexivity | discriminate].
    + rewrite B in E. rewrite A. destruct (AppendOpts H N m [] v opts) as [b0 [e'|]| |]; try discriminate. split; [reflexivity | discriminate].
Qed.

(** ** C41: errors *)
Theorem C41_prefix H m v opts dst b e : mem_bytes_ok m -> methods_append H m -> (v <> None -> call_opts opts <> None) ->
  append_returns H m dst v opts (Ret b e) -> exists b', b = dst ++ b'.
Proof.
  intros MB MA Ho (N & E & _). rewrite AppendOpts_dst in E by assumption. destruct (AppendOpts H N m [] v opts) as [b' e'| |]; try discriminate. injection E as <- _. eauto.
Qed.

(** The same is false of AppendOpts with a rejected option: it returns nil and
    the caller loses dst. *)
Definition keeps_dst H : Prop := forall m v opts dst b e, append_returns H m dst v opts (Ret b e) -> exists b', b = dst ++ b'.
Theorem C41_options_refuted : forall H, ~ keeps_dst H.
Proof.
  intros H J. destruct (J (fun _ => None) (Some (TBool, 8)) [Some (OTimeLayout [])] [1] [] (Some (EInvalidOption EmptyLayout))) as [b' Hb]; [|discriminate].
  exists 0%nat. split; [reflexivity | discriminate].
Qed.

(** ** C28: the encoding depends on the value only *)
(** Stated in full for every value laid out in memory; the theorems below are
    about [call]s: values all of whose parts are read as what they are. *)
Definition reads_value (H : host) vcall : Prop := forall m t w v opts o, holds H m t w v -> call_opts opts = Some o ->
  exists out err, encodes H vcall o t v out err /\ forall r, marshal_returns H m (Some (t, w)) opts r <-> r = outcome out err.
Theorem C28_value_partial H vcall m t w v opts o : host_ok H vcall -> call H m t w v opts o ->
  exists out err, encodes H vcall o t v out err /\ (forall r, marshal_returns H m (Some (t, w)) opts r <-> r = outcome out err) /\
    forall dst r, append_returns H m dst (Some (t, w)) opts r <-> r = Ret (dst ++ out) err.
Proof.
  intros OK C. destruct (call_returns H vcall OK m t w v opts o C) as (out & err & A & B). exists out, err. split; [exact A|]. split; [exact B|]. intros dst r.
  assert (R := append_value H vcall OK m t w v opts o dst out err (c_holds _ _ _ _ _ _ _ C) (c_opts _ _ _ _ _ _ _ C) A).
  split; [intros R'; eapply append_returns_det; eauto | intros ->; exact R].
Qed.

(** Wherever the value lies, and whatever else memory holds. *)
Theorem C28_memory_partial H vcall m m' t w w' v opts o : host_ok H vcall -> call H m t w v opts o -> call H m' t w' v opts o ->
  forall r, marshal_returns H m (Some (t, w)) opts r <-> marshal_returns H m' (Some (t, w')) opts r.
Proof.
  intros OK C C' r. destruct (C28_value_partial H vcall m t w v opts o OK C) as (out & err & A & B & _). destruct (C28_value_partial H vcall m' t w' v opts o OK C') as (out' & err' & A' & B' & _).
  destruct (encodes_det H vcall o t v _ _ _ _ A A') as [<- <-]. rewrite B, B'. reflexivity.
Qed.


(** ** C29: memory safety *)
Theorem C29_safe_partial H vcall m t w v opts o : host_ok H vcall -> call H m t w v opts o -> ~ marshal_returns H m (Some (t, w)) opts MCrash.
Proof.
  intros OK C R. destruct (call_returns H vcall OK m t w v opts o C) as (out & err & _ & B). apply B in R. destruct err; discriminate.
Qed.

Definition memory_safe H : Prop := forall m t w v opts, holds H m t w v -> ~ marshal_returns H m (Some (t, w)) opts MCrash.

(** Marshal([1]*int{&x}) *)
Definition arr_t : typ := TArray 1 (TPtr (TInt KInt)).
Definition arr_v : val := VArr [VPtr (VInt 3)].
Lemma arr_holds : holds mapH (mem_of mapH arr_t arr_v) arr_t (word_of mapH arr_t arr_v) arr_v.
Proof. apply (holdsb_ok mapH declb declb_ok _ 10). vm_compute. reflexivity. Qed.
Lemma arr_crash : marshal_returns mapH (mem_of mapH arr_t arr_v) (Some (arr_t, word_of mapH arr_t arr_v)) [] MCrash.
Proof. exists 12%nat; split; [vm_compute; reflexivity | discriminate]. Qed.

(** Marshal([]fmt.Stringer{time.Duration(3)}) *)
Definition ifc_t : typ := TSlice (TIface (Some 0%nat)).
Definition ifc_v : val := VSlice [VIface (TInt KInt) (VInt 3)].
Lemma ifc_holds : holds mapH (mem_of mapH ifc_t ifc_v) ifc_t (word_of mapH ifc_t ifc_v) ifc_v.
Proof. apply (holdsb_ok mapH declb declb_ok _ 10). vm_compute. reflexivity. Qed.
Lemma ifc_crash : marshal_returns mapH (mem_of mapH ifc_t ifc_v) (Some (ifc_t, word_of mapH ifc_t ifc_v)) [] MCrash.
Proof. exists 12%nat; split; [vm_compute; reflexivity | discriminate]. Qed.

(** type M map[string]int; func (M) MarshalJSON() ([]byte, error), which reads
    the map: a call on anything but a map fails. *)
Definition mm_decl : list typ := [tmap].
Definition mm_t : typ := TNamed 0.
Definition mm_impl (t : typ) (k : mkind) : bool := match t, k with TNamed 0, MJson | TPtr (TNamed 0), MJson => true | _, _ => false end.
Definition mm_base : host := constH mm_decl mm_impl null_result.
Definition mm_call (k : mkind) (td : typ) (wl : loc) (m : mem) (ctx : option Z) (dst : bytes) : option (bytes + Z) :=
  match td, wl with
  | TNamed 0, LMem a => if a =? 0 then h_call mm_base k td wl m ctx dst else match m a with Some (CMap _) => h_call mm_base k td wl m ctx dst | _ => None end
  | TNamed 0, LTmp _ _ => None
  | _, _ => h_call mm_base k td wl m ctx dst
  end.
Definition mmH : host := mkHost (h_env mm_base) (h_off mm_base) (h_size mm_base) (h_impl mm_base) mm_call
  (h_letter mm_base) (h_udigit mm_base) (h_fmt mm_base) (h_tofloat mm_base) (h_shortest mm_base) (h_sort mm_base).
Lemma mm_base_ok : host_ok mm_base (constV null_result).
Proof. apply constH_ok; [vm_compute; reflexivity|]. intros k td ctx b [= <-]. apply bytes_okb_ok. reflexivity. Qed.
Lemma mm_ok : host_ok mmH (constV null_result).
Proof.
  destruct mm_base_ok as [A1 A2 A3 A4 A5 A6 A7 A8 A9 A10]. constructor.
  - destruct A1 as [B1 B2 B3]. constructor; [exact B1 | exact B2 | exact B3].
  - exact A2.
  - exact A3.
  - exact A4.
  - exact A5.
  - exact A6.
  - exact A7.
  - exact A8.
  - intros k td wl m v ctx dst Hw.
    assert (E : h_call mmH k td wl m ctx dst = h_call mm_base k td wl m ctx dst); [|rewrite E; reflexivity].
    change (h_call mmH) with mm_call. unfold mm_call. destruct td; try reflexivity. destruct n as [|n]; [|reflexivity].
    assert (D : direct mmH (TNamed 0)) by (eapply d_map; reflexivity).
    destruct Hw as [[N _]|(_ & a & -> & Hr)]; [contradiction|]. destruct (a =? 0) eqn:Ea; [reflexivity|].
    inversion Hr as [| | | |? ? Q1 Q2 Q3 Q4| | | | |? ? kt et a' addrs es U R P M' L _| | | |? ? Q1]; subst; try discriminate.
    + cbn [rd] in Q3. change (0 =? 0) with true in Q3. cbn iota in Q3. injection Q3 as ->. discriminate.
    + cbn [rd] in R. change (0 =? 0) with true in R. cbn iota in R. injection R as ->. rewrite M'. reflexivity.
  - exact A10.
Qed.
Definition mm_v : val := VMap [(VStr (lit "a"), VInt 1)].
Lemma mm_holds : holds mmH (mem_of mmH mm_t mm_v) mm_t (word_of mmH mm_t mm_v) mm_v.
Proof. apply (holdsb_ok mmH declb declb_ok _ 10). vm_compute. reflexivity. Qed.
Lemma mm_crash : marshal_returns mmH (mem_of mmH mm_t mm_v) (Some (mm_t, word_of mmH mm_t mm_v)) [] MCrash.
Proof. exists 12%nat; split; [vm_compute; reflexivity | discriminate]. Qed.

Theorem C29_array_refuted : host_ok mapH plainV /\ ~ memory_safe mapH.
Proof. split; [exact map_ok|]. intros J. exact (J _ _ _ _ _ arr_holds arr_crash). Qed.
Theorem C29_method_refuted : host_ok mmH (constV null_result) /\ ~ memory_safe mmH.
Proof. split; [exact mm_ok|]. intros J. exact (J _ _ _ _ _ mm_holds mm_crash). Qed.
Theorem C29_interface_refuted : exists m t w v, holds mapH m t w v /\ (exists k, under (h_env mapH) t = TSlice (TIface (Some k))) /\ marshal_returns mapH m (Some (t, w)) [] MCrash.
Proof. do 4 eexists. split; [exact ifc_holds|]. split; [eexists; reflexivity | exact ifc_crash]. Qed.

Theorem C28_value_refuted : host_ok mapH plainV /\ ~ reads_value mapH plainV.
Proof.
  split; [exact map_ok|]. intros J. destruct (J _ _ _ _ [] default_opts arr_holds eq_refl) as (out & err & _ & B). assert (X := proj1 (B _) arr_crash). destruct err; discriminate.
Qed.

(** ** C30: the output is JSON and means the value *)
(** Under any options that keep strings decodable, when no part of the value is
    one of the cases of DocSpec's [sound_node] that the code gets wrong. *)
Theorem C30_json_partial H vcall m t w v opts o out lax : host_ok H vcall -> shortest_ok (h_shortest H) -> sort_ok H -> esc_on o ->
  call H m t w v opts o -> all_sound H vcall o lax (t, is_ptr H t, false, v) -> marshal_returns H m (Some (t, w)) opts (MOk out) ->
  exists j, doc H vcall o t (is_ptr H t) false v j /\ json no_ws lax j out.
Proof.
  intros OK SH SO ON C S R. eapply (sound_means H vcall OK m t w v opts o (c_holds _ _ _ _ _ _ _ C) (c_opts _ _ _ _ _ _ _ C)); eauto. apply (call_ok H vcall OK m t w v opts o C), R.
Qed.

(** Values without user methods, string options and omitnil, with string or
    integer keys, valid raw messages and times after year 0. *)
Definition regular_key (H : host) (kt : typ) (ca : bool) : Prop :=
  isString (h_env H) kt = true \/ (h_impl H kt MText = false /\ DocSpec.plain H kt ca).
Definition regular (H : host) (x : node) : Prop :=
  let '(t, ca, q, v) := x in
  q = false /\ (native t = false -> method_of H t ca = None) /\
  match t, v with
  | TTime, VTime g => ~ is_year ((t_unix g + t_offset g) / 86400 + 719163) 0 /\ Z.abs (t_offset g) < 360000
  | TRawMessage, VSlice vs => forall b, vbytes vs = Some b -> valid_json b
  | TSyncMap, VSync es => forall kt k x, In (VIface kt k, x) es -> regular_key H kt (is_ptr H kt) /\ k <> VNil
  | _, _ =>
    (forall kt et, under (h_env H) t = TMap kt et -> regular_key H kt false) /\
    (forall n fs f, structFields H n t = Some fs -> In f fs -> f_omitNil f = false)
  end.

Lemma regular_sound H vcall x : regular H x -> sound_node H vcall default_opts false x.
Proof.
  destruct x as [[[t ca] q] v]. intros (-> & Hm & Hr).
  assert (K : forall kt ca k, regular_key H kt ca -> key_sound H default_opts kt ca k).
  { intros kt ca0 k [K|[K1 K2]] S; [congruence|]. rewrite K1. right. exact K2. }
  unfold sound_node. destruct (native t) eqn:En.
  - destruct t; try discriminate En; destruct v; try exact I; try reflexivity; cbn in Hr.
    + right. left. split; [left; reflexivity|]. destruct Hr as [H1 H2]. split; [|exact H2]. intros Y. apply H1. rewrite <- Y. apply time_year_correct.
    + split; [reflexivity | discriminate].
    + intros b Hb. destruct (Hr b Hb) as [j Hj]. exists j. exact Hj.
    + intros kt k x Hi. destruct (Hr kt k x Hi) as [R N]. split; [apply K, R | intros _; exact N].
  - specialize (Hm eq_refl).
    assert (G : match under (h_env H) t, v with
      | TString, VStr s => false = true -> quotable s
      | TSlice e, VNil => byte_elem H e = true -> has (o_flags default_opts) nilSliceEmpty = false
      | TMap kt _, VMap es => forall k x, In (k, x) es -> key_sound H default_opts kt false k
      | TStruct _, VStruct vs => forall n pre f post ft x, structFields H n t = Some (pre ++ f :: post) -> Forall (hidden H default_opts t v) pre -> shown H default_opts t v f ft x ->
            drops_null H f ft -> ~ doc H vcall default_opts ft ca (quoted H f ft) x JNull
      | _, _ => True
      end).
    { assert (Hr' : (forall kt et, under (h_env H) t = TMap kt et -> regular_key H kt false) /\ (forall n fs f, structFields H n t = Some fs -> In f fs -> f_omitNil f = false))
        by (destruct t; try discriminate En; exact Hr).
      destruct Hr' as [R1 R2]. destruct (under (h_env H) t) eqn:Eu; try exact I; destruct v; try exact I; try discriminate.
      - reflexivity.
      - intros k x Hi. apply K. eapply R1. reflexivity.
      - intros n pre f post ft x Hs _ _ [D _]. rewrite (R2 n _ f Hs) in D; [discriminate | apply in_or_app; right; left; reflexivity]. }
    destruct t; try discriminate En; rewrite Hm; exact G.
Qed.

Theorem C30_regular H vcall m t w v out : host_ok H vcall -> shortest_ok (h_shortest H) -> sort_ok H ->
  call H m t w v [] default_opts -> (forall y, part H default_opts (t, is_ptr H t, false, v) y -> regular H y) -> marshal_returns H m (Some (t, w)) [] (MOk out) ->
  exists j, doc H vcall default_opts t (is_ptr H t) false v j /\ json no_ws false j out.
Proof.
  intros OK SH SO C Hr R. apply (C30_json_partial H vcall m t w v [] default_opts out false OK SH SO ik_esc C); [|exact R]. intros y Hy. apply regular_sound, Hr, Hy.
Qed.

(** In general it is false: dropping the first member, for instance, gives text
    that is not JSON (C21); other cases are the refuted theorems of C08, C12,
    C25, C38, C39 and C45. *)
Definition outputs_json H : Prop := forall m t w v o out, call H m t w v [] o -> marshal_returns H m (Some (t, w)) [] (MOk out) -> exists j, json_text true j out.
Theorem C30_json_refuted : host_ok omitH omitV /\ ~ outputs_json omitH.
Proof.
  split; [exact omit_ok|]. intros J. destruct (J _ _ _ _ _ _ omit_call1 omit_bad) as [j Hj].
  assert (V : json_valid (lit "{,""B"":1}") = true) by (apply json_valid_correct; [apply bytes_okb_ok; reflexivity | eauto]). vm_compute in V. discriminate.
Qed.

(** ** C35: unsupported types *)
(** A value with an unsupported part is an error, whatever the part's position. *)
Definition unsupported (H : host) (x : node) : Prop :=
  let '(t, ca, q, v) := x in
  DocSpec.plain H t ca /\
  ((under (h_env H) t = TComplex \/ under (h_env H) t = TChan \/ under (h_env H) t = TFunc \/ under (h_env H) t = TUnsafePointer) \/
   exists kt et, under (h_env H) t = TMap kt et /\ isString (h_env H) kt = false /\ isInteger (h_env H) kt = false /\ h_impl H kt MText = false).

Lemma unsupported_raises H vcall o t ca q v : unsupported H (t, ca, q, v) -> raises H vcall o (t, ca, q, v) (EUnsupportedType t).
Proof.
  intros (P & [U|(kt & et & U & K1 & K2 & K3)]).
  - apply ra_kind; [exact P|]. unfold opaque. destruct U as [U|[U|[U|U]]]; rewrite U; reflexivity.
  - eapply ra_key; eauto. unfold key_ok. rewrite K1, K2, K3. reflexivity.
Qed.

Theorem C35_reported H vcall m t w v opts o y : host_ok H vcall -> sort_ok H -> call H m t w v opts o ->
  part H o (t, is_ptr H t, false, v) y -> unsupported H y -> exists e, forall r, marshal_returns H m (Some (t, w)) opts r <-> r = MErr e.
Proof.
  intros OK SO C Hp Hu. destruct (call_returns H vcall OK m t w v opts o C) as (out & [e|] & A & B); [exists e; exact B|]. exfalso.
  destruct y as [[[t' ca'] q'] v']. apply (unsupported_raises H vcall o t' ca' q' v') in Hu. apply (raises_none H vcall o OK _ _ Hu).
  apply (part_gives H vcall o OK m (t, is_ptr H t, false, v)); [apply (call_held H vcall OK m t w v opts o C) | exact Hp|].
  apply encodes_inv in A. destruct A as [n Hn]. exists n, out. exact Hn.
Qed.

(** If nothing else in the value is an error, the error is the type's. *)
Theorem C35_error H vcall m t w v opts o : host_ok H vcall -> call H m t w v opts o ->
  (forall y e, part H o (t, is_ptr H t, false, v) y -> raises H vcall o y e -> unsupported H y) ->
  forall e, marshal_returns H m (Some (t, w)) opts (MErr e) -> exists t' ca' q' v', part H o (t, is_ptr H t, false, v) (t', ca', q', v') /\ unsupported H (t', ca', q', v') /\ e = EUnsupportedType t'.
Proof.
  intros OK C Hall e R. destruct (call_returns H vcall OK m t w v opts o C) as (out & err & A & B). apply B in R. destruct err as [e'|]; [|discriminate]. injection R as ->.
  apply encodes_inv in A. destruct A as [n Hn]. destruct (error_raised H vcall o OK n _ _ _ _ _ _ Hn) as ([[[t' ca'] q'] v'] & Hp & Hr).
  exists t', ca', q', v'. split; [exact Hp|]. assert (U := Hall _ _ Hp Hr). split; [exact U|]. destruct U as [[P1 P2] U].
  inversion Hr; subst; try reflexivity; try discriminate P1; try congruence.
  destruct U as [U|(kt & et & U & _)]; [destruct U as [U|[U|[U|U]]]; congruence | congruence].
Qed.

(** ** C44: termination *)
(** Every acyclic value: one that memory holds as a (finite) tree. *)
Theorem C44_terminates_partial H vcall m t w v opts o : host_ok H vcall -> call H m t w v opts o -> exists r, marshal_returns H m (Some (t, w)) opts r.
Proof. intros OK C. destruct (call_returns H vcall OK m t w v opts o C) as (out & err & _ & B). eexists. apply B. reflexivity. Qed.

(** Memory that is well typed everywhere may hold a cycle. *)
Definition always_returns H : Prop := forall m t w, (forall n, typed_any H m n (Some (t, w))) -> exists r, marshal_returns H m (Some (t, w)) [] r.
Theorem C44_cycle_refuted : host_ok exH ex_vcall /\ ~ always_returns exH.
Proof.
  split; [exact ex_ok|]. intros A. destruct (A cyc_mem (TPtr Node) 1000 cyc_typed) as [r Hr]. revert Hr. apply (cyc_marshal [] default_opts); [reflexivity | intros s; reflexivity].
Qed.

(** ** Cases that meet the hypotheses *)
Lemma const_appends ds impl result m : (forall k td ctx b, result k td ctx = inl b -> bytes_ok b) -> methods_append (constH ds impl result) m.
Proof.
  intros B k td w ctx. destruct k; cbn [h_call constH]; try (intros dst; destruct (result _ td ctx); reflexivity); intros b Hb; destruct (result _ td ctx) eqn:Er; try discriminate; injection Hb as <-; eapply B; eauto.
Qed.
Lemma lookup_bytes l : forallb (fun c => match snd c with CInt KUint8 n => (0 <=? n) && (n <? 256) | _ => true end) l = true -> mem_bytes_ok (lookup l).
Proof.
  induction l as [|[b c] l IH]; cbn [forallb lookup snd]; intros Hl a n Ha; [discriminate|]. apply andb_prop in Hl. destruct Hl as [Hc Hl].
  destruct (a =? b); [injection Ha as ->; lia | exact (IH Hl a n Ha)].
Qed.
Lemma null_bytes k td ctx b : null_result k td ctx = inl b -> bytes_ok b.
Proof. intros [= <-]. apply bytes_okb_ok. reflexivity. Qed.

(** map[string][]int{"a": {1, 2}} appended to "xy" *)
Definition mi_t : typ := TMap TString (TSlice (TInt KInt)).
Definition mi_v : val := VMap [(VStr (lit "a"), VSlice [VInt 1; VInt 2])].
Definition mi_m : mem := mem_of mapH mi_t mi_v.
Definition mi_w : Z := word_of mapH mi_t mi_v.
Lemma mi_call : call mapH mi_m mi_t mi_w mi_v [] default_opts.
Proof. apply (plain_call _ 10); vm_compute; reflexivity. Qed.
Lemma mi_bytes : mem_bytes_ok mi_m.
Proof. apply lookup_bytes. vm_compute. reflexivity. Qed.
Lemma map_appends m : methods_append mapH m.
Proof. apply const_appends. intros k td ctx b E. cbn in E. discriminate. Qed.
Lemma mi_out : marshal_returns mapH mi_m (Some (mi_t, mi_w)) [] (MOk (lit "{""a"":[1,2]}")).
Proof. exists 12%nat; split; [vm_compute; reflexivity | discriminate]. Qed.
Example C27_example : append_returns mapH mi_m (lit "xy") (Some (mi_t, mi_w)) [] (Ret (lit "xy{""a"":[1,2]}") None).
Proof.
  apply (proj1 (C27_append_marshal mapH mi_m _ [] (lit "xy") mi_bytes (map_appends _) ltac:(discriminate))). eexists. split; [|exact mi_out]. reflexivity.
Qed.

(** The same value elsewhere in memory, with other data around it. *)
Definition mi_m' : mem := lookup [(500, CMap [(600, 700)]); (600, CPtr 800); (608, CInt KInt 1); (800, CInt KUint8 97); (801, CInt KUint8 34); (700, CPtr 900); (708, CInt KInt 2);
  (716, CInt KInt 4); (900, CInt KInt 1); (908, CInt KInt 2); (916, CInt KInt 3)].
Lemma mi_call' : call mapH mi_m' mi_t 500 mi_v [] default_opts.
Proof.
  destruct mi_call as [_ C2 C3 C4]. constructor; [|exact C2|exact C3|exact C4].
  apply (holdsb_ok mapH declb declb_ok _ 10). vm_compute. reflexivity.
Qed.
Example C28_example : encodes mapH plainV default_opts mi_t mi_v (lit "{""a"":[1,2]}") None.
Proof.
  destruct (C28_value_partial mapH plainV mi_m mi_t mi_w mi_v [] default_opts map_ok mi_call) as (out & err & A & B & _).
  assert (X := proj1 (B _) mi_out). destruct err as [e|]; [discriminate|]. injection X as ->. exact A.
Qed.
Example C28_memory_example : marshal_returns mapH mi_m' (Some (mi_t, 500)) [] (MOk (lit "{""a"":[1,2]}")).
Proof. apply (C28_memory_partial mapH plainV mi_m mi_m' mi_t mi_w 500 mi_v [] default_opts map_ok mi_call mi_call'). exact mi_out. Qed.
Example C29_example : ~ marshal_returns mapH mi_m (Some (mi_t, mi_w)) [] MCrash.
Proof. exact (C29_safe_partial mapH plainV mi_m mi_t mi_w mi_v [] default_opts map_ok mi_call). Qed.
Example C44_example : exists r, marshal_returns mapH mi_m (Some (mi_t, mi_w)) [] r.
Proof. exact (C44_terminates_partial mapH plainV mi_m mi_t mi_w mi_v [] default_opts map_ok mi_call). Qed.

Lemma no_fields t : structFields mapH 2 t = Some [] -> forall n fs f, structFields mapH n t = Some fs -> In f fs -> f_omitNil f = false.
Proof.
  intros E n fs f Hs Hf. apply (structFields_mono mapH n (n + 2)) in Hs; [|lia]. apply (structFields_mono mapH 2 (n + 2)) in E; [|lia].
  rewrite E in Hs. injection Hs as <-. destruct Hf.
Qed.
Example C30_example : exists j, doc mapH plainV default_opts mi_t false false mi_v j /\ json no_ws false j (lit "{""a"":[1,2]}").
Proof.
  refine (C30_regular mapH plainV mi_m mi_t mi_w mi_v _ map_ok ex_shortest (constH_sort _ _ _) mi_call _ mi_out).
  intros y Hy. inversion Hy as [|? y1 ? Hc Hy1]; subst.
  { split; [reflexivity|]. split; [reflexivity|]. split; [intros kt et [= <- <-]; left; reflexivity | apply no_fields; vm_compute; reflexivity]. }
  inversion Hc as [| | | |? ? ? ? ? ? ? ? ? U ? ? S|? ? ? ? ? ? ? ? ? U ? Hi| | |]; subst; try discriminate.
  - injection U as <- <-. discriminate S.
  - injection U as <- <-. destruct Hi as [[= <- <-]|[]]. clear Hc Hy. inversion Hy1 as [|? y2 ? Hc Hy2]; subst.
    { split; [reflexivity|]. split; [reflexivity|]. split; [intros kt et [=] | apply no_fields; vm_compute; reflexivity]. }
    inversion Hc as [| |? ? ? ? ? ? ? U' ? Hi| | | | | |]; subst; try discriminate. injection U' as <-.
    assert (R : forall n, regular mapH (TInt KInt, true, false, VInt n)).
    { intros n. split; [reflexivity|]. split; [reflexivity|]. split; [intros kt et [=] | apply no_fields; vm_compute; reflexivity]. }
    clear Hc. inversion Hy2 as [|? y3 ? Hc ?]; subst.
    + destruct Hi as [<-|[<-|[]]]; apply R.
    + exfalso. destruct Hi as [<-|[<-|[]]]; inversion Hc; discriminate.
Qed.

(** map[string]func(): an error; Append keeps dst. *)
Example C35_example : exists e, forall r, marshal_returns mapH (mem_of mapH fn_t fn_v) (Some (fn_t, word_of mapH fn_t fn_v)) [] r <-> r = MErr e.
Proof.
  eapply (C35_reported mapH plainV _ _ _ _ _ _ (TFunc, false, false, VOpaque) map_ok (constH_sort _ _ _) fn_call).
  - apply inner_part, (walk_ok mapH default_opts 10 [0%nat]). vm_compute. reflexivity.
  - split; [split; reflexivity|]. left. right. right. left. reflexivity.
Qed.
Lemma fn_error : marshal_returns mapH (mem_of mapH fn_t fn_v) (Some (fn_t, word_of mapH fn_t fn_v)) [] (MErr (EUnsupportedType TFunc)).
Proof. exists 12%nat; split; [vm_compute; reflexivity | discriminate]. Qed.
Example C35_error_example : exists t' ca' q' v', part mapH default_opts (fn_t, false, false, fn_v) (t', ca', q', v') /\ unsupported mapH (t', ca', q', v') /\ EUnsupportedType TFunc = EUnsupportedType t'.
Proof.
  apply (C35_error mapH plainV _ _ _ _ _ _ map_ok fn_call); [|exact fn_error].
  intros y e Hy Hr. inversion Hy as [|? y1 ? Hc Hy1]; subst.
  - inversion Hr as [| | | | |? ? ? ? ? ? ? U K| | | |]; subst; try discriminate. cbn in U. injection U as <- <-. discriminate K.
  - inversion Hc as [| | | |? ? ? ? ? ? ? ? ? U ? ? S|? ? ? ? ? ? ? ? ? U ? Hi| | |]; subst; try discriminate.
    + injection U as <- <-. discriminate S.
    + injection U as <- <-. destruct Hi as [[= <- <-]|[]]. inversion Hy1 as [|? y2 ? Hc2 _]; subst; [|inversion Hc2; discriminate].
      split; [split; reflexivity|]. left. right. right. left. reflexivity.
Qed.
(** map[bool]int *)
Definition mb_t : typ := TMap TBool (TInt KInt).
Lemma mb_call : call mapH (mem_of mapH mb_t (VMap [])) mb_t (word_of mapH mb_t (VMap [])) (VMap []) [] default_opts.
Proof. apply (plain_call _ 10); vm_compute; reflexivity. Qed.
Example C35_key_example : exists e, forall r, marshal_returns mapH (mem_of mapH mb_t (VMap [])) (Some (mb_t, word_of mapH mb_t (VMap []))) [] r <-> r = MErr e.
Proof.
  eapply (C35_reported mapH plainV _ _ _ _ _ _ _ map_ok (constH_sort _ _ _) mb_call); [constructor|].
  split; [split; reflexivity|]. right. do 2 eexists. repeat split; reflexivity.
Qed.
Lemma fn_bytes : mem_bytes_ok (mem_of mapH fn_t fn_v).
Proof. apply lookup_bytes. vm_compute. reflexivity. Qed.
Example C41_example : exists b, append_returns mapH (mem_of mapH fn_t fn_v) (lit "xy") (Some (fn_t, word_of mapH fn_t fn_v)) [] (Ret (lit "xy" ++ b) (Some (EUnsupportedType TFunc))).
Proof.
  destruct (proj2 (proj1 (proj2 (C27_append_marshal mapH _ _ [] (lit "xy") fn_bytes (map_appends _) ltac:(discriminate))) _) fn_error) as [b Hb].
  assert (Ho : Some (fn_t, word_of mapH fn_t fn_v) <> None -> call_opts [] <> None) by (intros _; discriminate).
  destruct (C41_prefix _ _ _ _ _ _ _ fn_bytes (map_appends _) Ho Hb) as [b' ->]. eauto.
Qed.

Print Assumptions C27_append_marshal.
Print Assumptions C41_prefix.
Print Assumptions C41_options_refuted.
Print Assumptions C28_value_partial.
Print Assumptions C28_memory_partial.
Print Assumptions C28_value_refuted.
Print Assumptions C29_safe_partial.
Print Assumptions C29_array_refuted.
Print Assumptions C29_method_refuted.
Print Assumptions C29_interface_refuted.
Print Assumptions C30_json_partial.
Print Assumptions C30_regular.
Print Assumptions C30_json_refuted.
Print Assumptions C35_reported.
Print Assumptions C35_error.
Print Assumptions C44_terminates_partial.
Print Assumptions C44_cycle_refuted.
