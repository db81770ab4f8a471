(** C72: encoding and decoding into an interface give the same value back. *)
From Coq Require Import Permutation.
From Verif Require Import Base Utf8 JsonSpec OptionsModel EscapeModel EscapeProof NumberProof JsonParse IntModel IntProof TypesModel TypesFacts FloatModel FloatProof FloatSpec FloatShort FloatTotal Base64Proof LeafModel LeafProof
  MemModel FieldsModel InstrModel ExecModel ValueModel ExecProof HostFacts VencFacts MarshalThm DocSpec EntriesFacts DocLeaf PartFacts DocProof SafeProof ApiFacts PartsThm ShapeThm CallFacts ShuffleThm OrderThm
  StrictParse ExampleHost ExampleConst ExampleRead Properties_Options Properties_Strings Properties_Numbers Properties_Floats Properties_Members Properties_Maps Properties_Api Properties_Lossless Properties_Failures.

(** ** The values of json.Unmarshal *)
(** interface{}, and the types of what json.Unmarshal puts in one. *)
Definition any_t : typ := TIface None.
Definition list_t : typ := TSlice any_t.
Definition dict_t : typ := TMap TString any_t.

(** A float64 read from a number: the nearest one, with the sign of the text
    when that is zero. *)
Definition float_read (l : bytes) (f : fval) : Prop :=
  exists M K, num_value l M K /\
    match f with
    | FZero neg => reads_as true M K (0, emin true) /\ (neg = true <-> exists r, l = 45 :: r)
    | FFin neg mm e => reads_as true M K (fsign neg (Zpos mm), e)
    | _ => False
    end.

(** What decoding a JSON value into an interface{} gives, as encoding/json
    documents it, for texts whose strings are Unicode, whose objects have
    distinct names and whose numbers are in the range of a float64.  A map has no
    order. *)
Inductive decodes : jval -> val -> Prop :=
| dc_null : decodes JNull VNil
| dc_bool b : decodes (JBool b) (VIface TBool (VBool b))
| dc_num l f : float_read l f -> decodes (JNum l) (VIface (TFloat true) (VFloat f))
| dc_str s rs : utf8_string s rs -> decodes (JStr (flat_map utf16 rs)) (VIface TString (VStr s))
| dc_arr js vs : decodes_list js vs -> decodes (JArr js) (VIface list_t (VSlice vs))
| dc_obj ms es es' : decodes_members ms es -> NoDup (map fst es) -> Permutation es es' -> decodes (JObj ms) (VIface dict_t (VMap es'))
with decodes_list : list jval -> list val -> Prop :=
| dl_nil : decodes_list [] []
| dl_cons j v js vs : decodes j v -> decodes_list js vs -> decodes_list (j :: js) (v :: vs)
with decodes_members : list (list cu * jval) -> list (val * val) -> Prop :=
| dm_nil : decodes_members [] []
| dm_cons s rs j v ms es : utf8_string s rs -> decodes j v -> decodes_members ms es -> decodes_members ((flat_map utf16 rs, j) :: ms) ((VStr s, v) :: es).
Scheme decodes_ind2 := Induction for decodes Sort Prop with decodes_list_ind2 := Induction for decodes_list Sort Prop with decodes_members_ind2 := Induction for decodes_members Sort Prop.
Combined Scheme decodes_mutind from decodes_ind2, decodes_list_ind2, decodes_members_ind2.

(** Values of these types: finite floats, strings that are Unicode, slices and
    maps that are not nil. *)
Inductive generic : typ -> val -> Prop :=
| g_nil : generic any_t VNil
| g_some t v : t <> any_t -> generic t v -> generic any_t (VIface t v)
| g_bool b : generic TBool (VBool b)
| g_float f : finite_float true f -> generic (TFloat true) (VFloat f)
| g_str s rs : utf8_string s rs -> generic TString (VStr s)
| g_list vs : (forall v, In v vs -> generic any_t v) -> generic list_t (VSlice vs)
| g_dict es : NoDup (map fst es) -> (forall k v, In (k, v) es -> exists s rs, k = VStr s /\ utf8_string s rs) -> (forall k v, In (k, v) es -> generic any_t v) -> generic dict_t (VMap es).

(** The value as an interface{}. *)
Definition as_any (t : typ) (v : val) : val := match t with TIface _ => v | _ => VIface t v end.

Lemma generic_cases t v : generic t v -> t = any_t \/ t = TBool \/ t = TFloat true \/ t = TString \/ t = list_t \/ t = dict_t.
Proof. destruct 1; auto 10. Qed.

(** ** Decoding is a function, up to the order of maps *)
Lemma fsign_zero neg mm : fsign neg (Zpos mm) <> 0. Proof. destruct neg; discriminate. Qed.
Lemma float_read_det l f g : float_read l f -> float_read l g -> f = g.
Proof.
  intros (M & K & V & F) (M' & K' & V' & G). destruct (num_value_det _ _ _ _ _ V V') as [<- <-].
  destruct f as [| |n|n mm e], g as [| |n'|n' mm' e']; try contradiction.
  - destruct F as [_ F], G as [_ G]. f_equal. destruct n, n'; try reflexivity; [assert (X := proj2 G (proj1 F eq_refl)) | assert (X := proj2 F (proj1 G eq_refl))]; discriminate X.
  - destruct F as [F _]. exfalso. apply (fsign_zero n' mm'). assert (X := reads_unique _ _ _ _ _ G F). congruence.
  - destruct G as [G _]. exfalso. apply (fsign_zero n mm). assert (X := reads_unique _ _ _ _ _ F G). congruence.
  - assert (X := reads_unique _ _ _ _ _ F G). destruct n, n'; cbn [fsign] in X; injection X as E1 E2; subst; try reflexivity; discriminate.
Qed.
Lemma float_read_finite l f : float_read l f -> finite_float true f.
Proof.
  intros (M & K & _ & F). destruct f as [| |n|n mm e]; try contradiction; [exact I|]. destruct F as [F _]. cbn [finite_float]. destruct n; [|exact F].
  unfold float_of in *. cbn [fsign fst snd] in *. rewrite Z.abs_opp in F. exact F.
Qed.

Lemma utf8_string_det s rs rs' : utf8_string s rs -> utf8_string s rs' -> rs = rs'.
Proof.
  intros A B. apply valid_utf8_segments in A, B. assert (X := segments_det _ _ _ A B). clear -X. revert rs' X. induction rs as [|r rs IH]; intros [|r' rs'] X; try discriminate; [reflexivity|].
  injection X as -> X. f_equal. apply IH, X.
Qed.

Notation same_entry := (fun a b : val * val => shuffle (fst a) (fst b) /\ shuffle (snd a) (snd b)).
Lemma Forall2_flip {A B} (R : A -> B -> Prop) l k : Forall2 R l k -> Forall2 (fun b a => R a b) k l.
Proof. induction 1; constructor; assumption. Qed.

Lemma decodes_det_all : (forall j v, decodes j v -> forall d, decodes j d -> shuffle v d) /\
  (forall js vs, decodes_list js vs -> forall ds, decodes_list js ds -> Forall2 shuffle vs ds) /\
  (forall ms es, decodes_members ms es -> forall es', decodes_members ms es' -> Forall2 same_entry es es').
Proof.
  apply decodes_mutind.
  - intros d D. inversion D; subst. apply sh_refl.
  - intros b d D. inversion D; subst. apply sh_refl.
  - intros l f F d D. inversion D as [| |? g G| | |]; subst. rewrite (float_read_det l f g F G). apply sh_refl.
  - intros s rs U d D. inversion D as [| | |s' rs' U' Er| |]; subst. rewrite (C01_distinct s s' rs rs' U U' (eq_sym Er)). apply sh_refl.
  - intros js vs _ IH d D. inversion D; subst. apply sh_iface, sh_slice, IH. assumption.
  - intros ms es es' _ IH _ P d D. inversion D as [| | | | |? e0 e1 M _ P']; subst. apply sh_iface.
    assert (F := Forall2_flip _ _ _ (IH e0 M)). destruct (Forall2_perm _ _ _ P' _ F) as (e2 & F2 & P2).
    apply (sh_map es' e2 e1); [eapply Permutation_trans; [apply Permutation_sym, P | exact P2]|]. apply Forall2_flip in F2. exact F2.
  - intros ds D. inversion D; subst. constructor.
  - intros j v js vs _ IHj _ IH ds D. inversion D; subst. constructor; auto.
  - intros es D. inversion D; subst. constructor.
  - intros s rs j v ms es U _ IHj _ IH es' D. inversion D as [|s' rs' ? v' ? e0 U' Dj Dm Er]; subst. constructor; [|apply IH; assumption].
    cbn [fst snd]. rewrite (C01_distinct s s' rs rs' U U' (eq_sym Er)). split; [apply sh_refl | apply IHj; assumption].
Qed.

Lemma shuffle_str s k : shuffle (VStr s) k -> k = VStr s. Proof. inversion 1. reflexivity. Qed.
Lemma decodes_shuffle_all : (forall j v, decodes j v -> forall d, shuffle v d -> decodes j d) /\
  (forall js vs, decodes_list js vs -> forall ds, Forall2 shuffle vs ds -> decodes_list js ds) /\
  (forall ms es, decodes_members ms es -> forall es', Forall2 same_entry es es' -> decodes_members ms es' /\ map fst es' = map fst es).
Proof.
  apply decodes_mutind.
  - intros d S. inversion S; subst. constructor.
  - intros b d S. inversion S as [|? ? ?|? ? ? S1| | | | |]; subst; [constructor|]. inversion S1; subst. constructor.
  - intros l f F d S. inversion S as [|? ? ?|? ? ? S1| | | | |]; subst; [constructor; assumption|]. inversion S1; subst. constructor. assumption.
  - intros s rs U d S. inversion S as [|? ? ?|? ? ? S1| | | | |]; subst; [constructor; assumption|]. inversion S1; subst. constructor. assumption.
  - intros js vs D IH d S. inversion S as [|? ? ?|? ? ? S1| | | | |]; subst; [constructor; assumption|]. inversion S1 as [| | |? ? F| | | |]; subst; constructor; [assumption | apply IH, F].
  - intros ms es es' D IH N P d S. inversion S as [|? ? ?|? ? ? S1| | | | |]; subst; [econstructor; eassumption|]. inversion S1 as [| | | | | |? e1 e2 P1 F|]; subst; [econstructor; eassumption|].
    destruct (Forall2_perm _ _ _ (Permutation_sym (Permutation_trans P P1)) _ F) as (e3 & F3 & P3). destruct (IH e3 F3) as [Dm Em].
    apply (dc_obj ms e3 e2); [exact Dm | rewrite Em; exact N | apply Permutation_sym, P3].
  - intros ds F. inversion F; subst. constructor.
  - intros j v js vs _ IHj _ IH ds F. inversion F; subst. constructor; auto.
  - intros es' F. inversion F; subst. split; [constructor | reflexivity].
  - intros s rs j v ms es U _ IHj _ IH es' F. inversion F as [|? [k x] ? e0 [Sk Sx] F0]; subst. cbn [fst snd] in *. apply shuffle_str in Sk. subst k.
    destruct (IH e0 F0) as [Dm Em]. split; [constructor; auto | cbn [map fst]; f_equal; exact Em].
Qed.

(** What is decoded is such a value. *)
Lemma decodes_generic_all : (forall j v, decodes j v -> generic any_t v) /\ (forall js vs, decodes_list js vs -> forall v, In v vs -> generic any_t v) /\
  (forall ms es, decodes_members ms es -> forall k v, In (k, v) es -> (exists s rs, k = VStr s /\ utf8_string s rs) /\ generic any_t v).
Proof.
  apply decodes_mutind.
  - constructor.
  - intros b. apply g_some; [discriminate | constructor].
  - intros l f F. apply g_some; [discriminate|]. constructor. eapply float_read_finite; eassumption.
  - intros s rs U. apply g_some; [discriminate | econstructor; eassumption].
  - intros js vs _ IH. apply g_some; [discriminate | constructor; exact IH].
  - intros ms es es' _ IH N P. apply g_some; [discriminate|].
    assert (G : forall k v, In (k, v) es' -> (exists s rs, k = VStr s /\ utf8_string s rs) /\ generic any_t v) by (intros k v Hi; apply IH; eapply Permutation_in; [apply Permutation_sym, P | exact Hi]).
    constructor; [eapply Permutation_NoDup; [apply Permutation_map, P | exact N] | intros k v Hi; apply (G k v Hi) | intros k v Hi; apply (G k v Hi)].
  - intros v [].
  - intros j v js vs _ IHj _ IH x [<-|Hx]; auto.
  - intros k v [].
  - intros s rs j v ms es U _ IHj _ IH k x [E|Hx]; [injection E as <- <-; eauto | auto].
Qed.

Lemma Forall2_members ms ms' : Permutation ms ms' -> forall es, decodes_members ms es -> exists es', decodes_members ms' es' /\ Permutation es es'.
Proof.
  assert (A : forall ms es, decodes_members ms es <-> Forall2 (fun m e => exists s rs, fst e = VStr s /\ utf8_string s rs /\ fst m = flat_map utf16 rs /\ decodes (snd m) (snd e)) ms es).
  { clear. induction ms as [|[us j] ms IH]; intros [|[k v] es]; split; intros X; inversion X; subst; try constructor; cbn [fst snd] in *.
    - eauto 8.
    - apply IH. assumption.
    - match goal with Y : exists s rs, _ |- _ => destruct Y as (s & rs & -> & U & -> & D) end. constructor; [exact U | exact D|]. apply IH. assumption. }
  intros P es D. apply A in D. destruct (Forall2_perm _ _ _ P _ D) as (es' & F & Q). exists es'. split; [apply A, F | exact Q].
Qed.

Section Generic.
  Variable H : host.
  Variable vcall : mkind -> typ -> val -> option Z -> bytes + Z.
  Variable o : encOpts.
  Notation E := (h_env H).
  Notation Doc := (doc H vcall o).

  (** These types have no methods. *)
  Definition no_methods : Prop := forall t k, In t [any_t; TBool; TFloat true; TString; list_t; dict_t] -> h_impl H t k = false /\ h_impl H (TPtr t) k = false.
  Hypothesis NM : no_methods.

  Lemma generic_bare t v : generic t v -> bare H t.
  Proof.
    intros G ca. apply generic_cases in G. assert (I : In t [any_t; TBool; TFloat true; TString; list_t; dict_t]) by (cbn [In]; intuition (subst; auto 10)).
    split; [intuition (subst; reflexivity)|]. unfold method_of. cbn [pick]. rewrite !(fun k => proj1 (NM t k I)), !(fun k => proj2 (NM t k I)), !andb_false_r. reflexivity.
  Qed.
  Lemma generic_under t v : generic t v -> under E t = t.
  Proof. intros G. apply generic_cases in G. intuition (subst; reflexivity). Qed.
  Lemma generic_ptr t v : generic t v -> is_ptr H t = false.
  Proof. intros G. apply generic_cases in G. intuition (subst; reflexivity). Qed.

  (** ** Such values are encoded as documented, without errors *)
  Lemma generic_child t ca v y : generic t v -> child H o (t, ca, false, v) y -> exists t' ca' v', y = (t', ca', false, v') /\ generic t' v'.
  Proof.
    intros G C. assert (U := generic_under t v G). assert (B := generic_bare t v G). remember (t, ca, false, v) as x eqn:Ex. destruct C; injection Ex; intros; subst; inversion G; subst; try discriminate;
      try (match goal with X : under _ _ = _ |- _ => cbn in X; try discriminate X end); eauto 8.
    - match goal with X : under _ list_t = _ |- _ => change (list_t = TSlice e) in X; injection X as <- end. eauto 8.
    - match goal with X : under _ dict_t = _ |- _ => change (dict_t = TMap kt et) in X; injection X as <- <- end. match goal with X : isString _ TString = false |- _ => discriminate X end.
    - match goal with X : under _ dict_t = _ |- _ => change (dict_t = TMap kt et) in X; injection X as <- <- end. eauto 8.
  Qed.
  Lemma generic_part t ca v y : generic t v -> part H o (t, ca, false, v) y -> exists t' ca' v', y = (t', ca', false, v') /\ generic t' v'.
  Proof.
    intros K Hy. remember (t, ca, false, v) as x eqn:Ex. revert t ca v K Ex. induction Hy as [x|x y z C _ IH]; intros t ca v K ->; [eauto|].
    destruct (generic_child _ _ _ _ K C) as (t' & ca' & v' & -> & K'). eapply IH; [exact K' | reflexivity].
  Qed.

  Lemma generic_sound t ca v : generic t v -> all_sound H vcall o false (t, ca, false, v).
  Proof.
    intros K y Hy. destruct (generic_part _ _ _ _ K Hy) as (t' & ca' & v' & -> & G). clear K Hy.
    destruct (generic_bare t' v' G ca') as [_ B]. unfold sound_node. destruct G; cbn [under any_t list_t dict_t] in *; try rewrite B; try exact I; try discriminate.
  Qed.
  Lemma finite_not f : finite_float true f -> ~ not_finite f.
  Proof. intros F [-> | (n & ->)]; exact F. Qed.
  Lemma generic_quiet t ca v : generic t v -> forall y e, part H o (t, ca, false, v) y -> ~ raises H vcall o y e.
  Proof.
    intros K y e Hy. destruct (generic_part _ _ _ _ K Hy) as (t' & ca' & v' & -> & G). clear K Hy. assert (B := generic_bare t' v' G ca'). destruct B as [_ B]. intros R.
    inversion R; subst; try congruence; try (inversion G; fail).
    - inversion G; subst. eapply finite_not; eassumption.
    - assert (X := generic_cases _ _ G). match goal with O : opaque H _ = true |- _ => intuition (subst; discriminate O) end.
    - assert (X := generic_cases _ _ G). intuition (subst; try discriminate). match goal with U : under _ dict_t = _ |- _ => change (dict_t = TMap kt et) in U; injection U as <- <- end. discriminate.
  Qed.
  Lemma generic_dyn t v : generic t v -> dyn_ok H t.
  Proof.
    intros G. right. intros D. assert (X := generic_cases _ _ G). destruct X as [-> | [-> | [-> | [-> | [-> | ->]]]]]; try (inversion D; subst; discriminate).
    eapply in_map; reflexivity.
  Qed.
  Lemma generic_call m t w v opts : generic t v -> holds H m t w v -> call_opts opts = Some o -> call H m t w v opts o.
  Proof.
    intros K Hh Ho. constructor; [exact Hh | exact Ho | eapply generic_dyn; exact K|].
    intros y Hy. destruct (generic_part _ _ _ _ K Hy) as (t' & ca' & v' & -> & G). clear K Hy Hh.
    destruct (generic_bare t' v' G ca') as [_ B]. unfold readable_node. destruct G; cbn [under any_t list_t dict_t] in *; try rewrite B; try exact I.
    - eapply generic_dyn; eassumption.
    - right. left. reflexivity.
  Qed.
  Lemma generic_distinct t ca v : generic t v -> all_distinct H vcall o (t, ca, false, v).
  Proof.
    intros K y Hy. destruct (generic_part _ _ _ _ K Hy) as (t' & ca' & v' & -> & G). clear K Hy.
    destruct G; try (split; [intros ? ? ? [=] | intros ? [=]]; fail).
    eapply C22_string_keys; [reflexivity | reflexivity | | assumption].
    intros k x Hi. destruct (H1 k x Hi) as (s & rs & -> & U). exists s, rs. split; [reflexivity|]. split; [eapply utf8_string_bytes; exact U | exact U].
  Qed.

  (** ** They decode to themselves *)
  Hypothesis SE : shortest_exact (h_shortest H).
  Lemma float_text_read f l : finite_float true f -> float_text (h_shortest H) true f l -> float_read l f.
  Proof.
    destruct SE as [Sh Se]. destruct f as [| |n|n mm e]; try contradiction; cbn [finite_float float_text].
    - intros _ ->. exists 0, 0. split; [destruct n; [apply (nv_neg [48] [] [] [] 0) | apply (nv_pos [48] [] [] [] 0)]; try constructor; auto|]. split; [apply reads_zero|].
      destruct n; split; try discriminate; eauto. intros (r & [=]).
    - intros Hf (ds & dp & M & K & Es & V & Sm). exists M, K. split; [exact V|]. destruct (Se true mm e ds dp Hf Es) as (Rd & _).
      apply (reads_same true _ _ _ _ _ Sm). destruct n; cbn [fsign]; [|exact Rd]. apply (reads_neg true (dval ds) _ (Zpos mm, e)). exact Rd.
  Qed.

  Lemma doc_members es : (forall k v, In (k, v) es -> exists s rs, k = VStr s /\ utf8_string s rs) -> (forall k v, In (k, v) es -> forall j, Doc any_t false false v j -> decodes j v) ->
    forall ms, doc_entries H vcall o TString any_t es ms -> decodes_members ms es.
  Proof.
    induction es as [|[k v] es IH]; intros Hk Hv ms D; inversion D as [|? ? ? us ? j ? ms1 Dk Dv De]; subst; [constructor|].
    destruct (Hk k v (or_introl eq_refl)) as (s & rs & -> & U). apply (key_units H vcall o TString s us eq_refl) in Dk. rewrite (string_units_det _ _ _ Dk (string_units_valid s rs U)).
    constructor; [exact U | apply (Hv (VStr s) v); [left; reflexivity | exact Dv]|]. apply IH; [intros; eapply Hk; right; eassumption | intros k0 v0 Hi; apply (Hv k0 v0); right; exact Hi | exact De].
  Qed.

  Ltac inv_doc D := inversion D; subst; try discriminate; try congruence; repeat match goal with X : under _ _ = _ |- _ => cbn [under any_t list_t dict_t] in X; try discriminate X; try injection X as; subst end; try discriminate.
  Lemma doc_decodes t v : generic t v -> forall ca j, Doc t ca false v j -> decodes j (as_any t v).
  Proof.
    induction 1 as [|t v Nt G IH|b|f F|s rs U|vs Gv IH|es N Hk Gv IH]; intros ca j D.
    - destruct (generic_bare any_t VNil g_nil ca) as [B1 B2]. inv_doc D; constructor.
    - assert (Ga := g_some t v Nt G). destruct (generic_bare _ _ Ga ca) as [B1 B2]. inv_doc D.
      assert (X : as_any t v = VIface t v) by (assert (Y := generic_cases t v G); intuition (subst; try reflexivity)). cbn [as_any any_t]. rewrite <- X. eapply IH. eassumption.
    - destruct (generic_bare _ _ (g_bool b) ca) as [B1 B2]. inv_doc D. constructor.
    - destruct (generic_bare _ _ (g_float f F) ca) as [B1 B2]. inv_doc D. constructor. apply float_text_read; assumption.
    - destruct (generic_bare _ _ (g_str s rs U) ca) as [B1 B2]. inv_doc D. match goal with X : string_units s ?us |- _ => rewrite (string_units_det _ _ _ X (string_units_valid s rs U)) end. econstructor. exact U.
    - destruct (generic_bare _ _ (g_list vs Gv) ca) as [B1 B2]. inv_doc D. constructor. clear D.
      match goal with X : doc_elems _ _ _ _ _ _ ?js |- _ => revert js X end. clear - IH. induction vs as [|v vs IHv]; intros js X; inversion X; subst; constructor.
      + eapply (IH v (or_introl eq_refl)). eassumption.
      + apply IHv; [intros x Hx; apply IH; right; exact Hx | assumption].
    - destruct (generic_bare _ _ (g_dict es N Hk Gv) ca) as [B1 B2]. inv_doc D.
      match goal with X : doc_entries _ _ _ _ _ es ?ms, P : Permutation ?ms _ |- _ => assert (Dm := doc_members es Hk (fun k v Hi j => IH k v Hi false j) ms X); destruct (Forall2_members _ _ P es Dm) as (es1 & D1 & P1) end.
      apply (dc_obj _ es1 es); [exact D1 | eapply Permutation_NoDup; [apply Permutation_map, P1 | exact N] | apply Permutation_sym, P1].
  Qed.
End Generic.

(** Encoding such a value gives a document, and decoding the document into an
    interface{} gives the value back, up to the order of maps, which Go does not
    define: exactly these are the results of decoding. *)
Theorem C72_roundtrip H vcall m t w v opts o : host_ok H vcall -> shortest_exact (h_shortest H) -> sort_ok H -> no_methods H -> esc_on o -> generic t v -> t <> any_t -> holds H m t w v -> call_opts opts = Some o ->
  exists out, marshal_returns H m (Some (t, w)) opts (MOk out) /\ (exists j, json_text false j out) /\
    forall j, json_text false j out -> forall d, decodes j d <-> exists v', d = VIface t v' /\ shuffle v v'.
Proof.
  intros OK SE SO NM ON G Nt Hh Ho. assert (C := generic_call H o NM m t w v opts G Hh Ho).
  destruct (proj2 (C65_succeeds H vcall m t w v opts o OK C) (generic_quiet H vcall o NM t _ v G)) as [out R]. exists out. split; [exact R|].
  destruct (C30_json_partial H vcall m t w v opts o out false OK (proj1 SE) SO ON C (generic_sound H vcall o NM t _ v G) R) as (j0 & D & J).
  split; [exists j0; apply cjson_text, J|]. intros j Hj. assert (B : bytes_ok out) by (apply (proj1 (json_bytes false) j0 out J)).
  assert (j = j0) as -> by (apply (json_text_det false false out j j0 B Hj); apply cjson_text; assumption).
  assert (X := doc_decodes H vcall o NM SE t v G _ _ D). assert (Ex : as_any t v = VIface t v) by (assert (Y := generic_cases t v G); intuition (subst; try reflexivity)). rewrite Ex in X.
  intros d. split.
  - intros Dd. assert (S := proj1 decodes_det_all _ _ X _ Dd). inversion S as [|? ? ?|? ? v' S1| | | | |]; subst; [exists v; split; [reflexivity | apply sh_refl] | eauto].
  - intros (v' & -> & S). apply (proj1 decodes_shuffle_all _ _ X). apply sh_iface, S.
Qed.

(** Encoding what was decoded gives the same document again. *)
Theorem C72_stable H vcall m t w v opts o out : host_ok H vcall -> shortest_exact (h_shortest H) -> sort_ok H -> insensitive vcall -> no_methods H -> esc_on o -> has (o_flags o) unsortedMap = false ->
  generic t v -> t <> any_t -> holds H m t w v -> call_opts opts = Some o -> marshal_returns H m (Some (t, w)) opts (MOk out) ->
  forall j t' v' m' w', json_text false j out -> decodes j (VIface t' v') -> holds H m' t' w' v' -> forall r, marshal_returns H m' (Some (t', w')) opts r <-> r = MOk out.
Proof.
  intros OK SE SO IN NM ON Srt G Nt Hh Ho R j t' v' m' w' Hj D Hh'.
  destruct (C72_roundtrip H vcall m t w v opts o OK SE SO NM ON G Nt Hh Ho) as (out0 & R0 & _ & Q). assert (E := marshal_returns_det _ _ _ _ _ _ R0 R). injection E as ->.
  destruct (proj1 (Q j Hj _) D) as (v1 & E & S). injection E as -> ->. rename v1 into v'.
  assert (G' : generic t v') by (assert (X := proj1 decodes_generic_all _ _ D); inversion X; assumption).
  assert (R' : marshal_returns H m' (Some (t, w')) opts (MOk out)).
  { apply (C22_order_independent H vcall m w m' w' t v v' opts o out OK SO IN); try assumption; [eapply generic_call; eassumption | eapply generic_call; eassumption | apply generic_distinct; assumption]. }
  intros r. split; [intros Rr; exact (marshal_returns_det _ _ _ _ _ _ Rr R') | intros ->; exact R'].
Qed.

(** The document is a complete invariant: two such values have the same one
    exactly when they have the same type and differ in the order of maps only. *)
Theorem C72_canonical H vcall m t w v m' t' w' v' opts o out out' : host_ok H vcall -> shortest_exact (h_shortest H) -> sort_ok H -> insensitive vcall -> no_methods H -> esc_on o -> has (o_flags o) unsortedMap = false ->
  call_opts opts = Some o -> generic t v -> t <> any_t -> holds H m t w v -> generic t' v' -> t' <> any_t -> holds H m' t' w' v' ->
  marshal_returns H m (Some (t, w)) opts (MOk out) -> marshal_returns H m' (Some (t', w')) opts (MOk out') ->
  (out = out' <-> t = t' /\ shuffle v v').
Proof.
  intros OK SE SO IN NM ON Srt Ho G Nt Hh G' Nt' Hh' R R'. split.
  - intros <-. destruct (C72_roundtrip H vcall m t w v opts o OK SE SO NM ON G Nt Hh Ho) as (o1 & R1 & (j & Hj) & Q1). assert (E := marshal_returns_det _ _ _ _ _ _ R1 R). injection E as ->.
    destruct (C72_roundtrip H vcall m' t' w' v' opts o OK SE SO NM ON G' Nt' Hh' Ho) as (o2 & R2 & _ & Q2). assert (E := marshal_returns_det _ _ _ _ _ _ R2 R'). injection E as ->.
    assert (D : decodes j (VIface t' v')) by (apply (Q2 j Hj); exists v'; split; [reflexivity | apply sh_refl]).
    apply (Q1 j Hj) in D. destruct D as (v1 & E & S). injection E as -> ->. auto.
  - intros (-> & S). destruct (C72_roundtrip H vcall m t' w v opts o OK SE SO NM ON G Nt Hh Ho) as (o1 & R1 & (j & Hj) & Q1). assert (E := marshal_returns_det _ _ _ _ _ _ R1 R). injection E as ->.
    assert (D : decodes j (VIface t' v')) by (apply (Q1 j Hj); eauto).
    assert (X := proj1 (C72_stable H vcall m t' w v opts o out OK SE SO IN NM ON Srt G Nt Hh Ho R j t' v' m' w' Hj D Hh' _) R'). congruence.
Qed.

(** So decoding any text and encoding the result gives a form that doing it
    again does not change: [j] is any JSON value that has a decoding. *)
Theorem C72_normal_form H vcall j t v m w opts o : host_ok H vcall -> shortest_exact (h_shortest H) -> sort_ok H -> insensitive vcall -> no_methods H -> esc_on o -> has (o_flags o) unsortedMap = false ->
  decodes j (VIface t v) -> holds H m t w v -> call_opts opts = Some o ->
  exists out, (forall r, marshal_returns H m (Some (t, w)) opts r <-> r = MOk out) /\ (exists j', json_text false j' out) /\
    forall j' t' v' m' w', json_text false j' out -> decodes j' (VIface t' v') -> holds H m' t' w' v' -> forall r, marshal_returns H m' (Some (t', w')) opts r <-> r = MOk out.
Proof.
  intros OK SE SO IN NM ON Srt D Hh Ho. assert (X := proj1 decodes_generic_all _ _ D). inversion X as [|? ? Nt G| | | | |]; subst.
  destruct (C72_roundtrip H vcall m t w v opts o OK SE SO NM ON G Nt Hh Ho) as (out & R & J & Q). exists out.
  split; [intros r; split; [intros Rr; exact (marshal_returns_det _ _ _ _ _ _ Rr R) | intros ->; exact R]|]. split; [exact J|].
  intros j' t' v' m' w'. eapply C72_stable; eassumption.
Qed.

(** ** The texts that can be decoded *)
(** Numbers that round to a float64, strings made of Unicode characters, and
    distinct names. *)
Definition in_range (l : bytes) : Prop := exists M K, num_value l M K /\ Z.abs M * 10 ^ Z.max 0 K < (2 ^ 1024 - 2 ^ 970) * 10 ^ Z.max 0 (- K).
Definition unicode (us : list cu) : Prop := exists rs, (forall r, In r rs -> scalar r) /\ us = flat_map utf16 rs.
Inductive decodable : jval -> Prop :=
| db_null : decodable JNull
| db_bool b : decodable (JBool b)
| db_num l : in_range l -> decodable (JNum l)
| db_str us : unicode us -> decodable (JStr us)
| db_arr js : (forall j, In j js -> decodable j) -> decodable (JArr js)
| db_obj ms : NoDup (map fst ms) -> (forall k j, In (k, j) ms -> unicode k) -> (forall k j, In (k, j) ms -> decodable j) -> decodable (JObj ms).

Lemma in_range_limit M K : Z.abs M * 10 ^ Z.max 0 K < (2 ^ 1024 - 2 ^ 970) * 10 ^ Z.max 0 (- K) <-> Z.abs (dec_num M K) < (2 ^ (prec true + 1) - 1) * 2 ^ (emax true - 1) * dec_den K.
Proof.
  unfold dec_num, dec_den. rewrite Z.abs_mul, (Z.abs_eq (10 ^ Z.max 0 K)) by (apply Z.lt_le_incl, pow10_pos; lia).
  replace ((2 ^ (prec true + 1) - 1) * 2 ^ (emax true - 1)) with (2 ^ 1024 - 2 ^ 970) by reflexivity. reflexivity.
Qed.
Lemma in_range_read l : in_range l <-> exists f, float_read l f.
Proof.
  split.
  - intros (M & K & V & L). apply in_range_limit in L. destruct (rounds_total true _ _ (dec_den_pos K) L) as [[m e] R].
    destruct m as [|mm|mm].
    + assert (e = emin true) as -> by (destruct R as ((_ & _ & F) & _); cbn [fst snd] in F; destruct F as [F|F]; [exfalso; apply F; reflexivity | exact F]).
      exists (FZero (match l with c :: _ => c =? 45 | [] => false end)), M, K. split; [exact V|]. split; [exact R|]. destruct l as [|c r]; [split; [discriminate | intros [? [=]]]|].
      split; [intros Hc; exists r; f_equal; lia | intros [? [= -> _]]; reflexivity].
    + exists (FFin false mm e), M, K. auto.
    + exists (FFin true mm e), M, K. auto.
  - intros (f & M & K & V & F). exists M, K. split; [exact V|]. apply in_range_limit. destruct f as [| |n|n mm e]; try contradiction; [apply F | apply F].
Qed.
Lemma unicode_string us : unicode us <-> exists s rs, utf8_string s rs /\ us = flat_map utf16 rs.
Proof.
  split.
  - intros (rs & Hs & ->). exists (flat_map utf8 rs), rs. split; [|reflexivity]. induction rs as [|r rs IH]; [constructor|]. cbn [flat_map]. constructor; [apply Hs; left; reflexivity | apply IH; intros; apply Hs; right; assumption].
  - intros (s & rs & U & ->). exists rs. split; [|reflexivity]. induction U as [|r s rs Hr U IH]; intros x Hx; [destruct Hx|]. destruct Hx as [<-|Hx]; auto.
Qed.

Lemma members_names ms es : decodes_members ms es -> forall s rs, utf8_string s rs -> (In (flat_map utf16 rs) (map fst ms) <-> In (VStr s) (map fst es)).
Proof.
  induction 1 as [|s0 rs0 j v ms es U D M IH]; intros s rs Us; [reflexivity|]. cbn [map fst In]. rewrite (IH s rs Us). split; (intros [E|E]; [left|right; exact E]).
  - f_equal. exact (C01_distinct s0 s rs0 rs U Us E).
  - injection E as ->. f_equal. eapply utf8_string_det; eassumption.
Qed.
Lemma members_nodup ms es : decodes_members ms es -> (NoDup (map fst ms) <-> NoDup (map fst es)).
Proof.
  induction 1 as [|s rs j v ms es U D M IH]; [split; constructor|]. cbn [map fst]. rewrite !NoDup_cons_iff, IH, (members_names ms es M s rs U). reflexivity.
Qed.
Lemma decodes_decodable_all : (forall j v, decodes j v -> decodable j) /\ (forall js vs, decodes_list js vs -> forall j, In j js -> decodable j) /\
  (forall ms es, decodes_members ms es -> forall k j, In (k, j) ms -> unicode k /\ decodable j).
Proof.
  apply decodes_mutind; try (intros; constructor; fail).
  - intros l f F. constructor. apply in_range_read. eauto.
  - intros s rs U. constructor. apply unicode_string. eauto.
  - intros js vs _ IH. constructor. exact IH.
  - intros ms es es' D IH N P. constructor; [apply (members_nodup ms es D), N | intros k j Hi; apply (IH k j Hi) | intros k j Hi; apply (IH k j Hi)].
  - intros j [].
  - intros j v js vs _ IHj _ IH x [<-|Hx]; auto.
  - intros k j [].
  - intros s rs j v ms es U _ IHj _ IH k x [E|Hx]; [|apply IH; exact Hx]. injection E as <- <-. split; [apply unicode_string; eauto | exact IHj].
Qed.

(** Exactly these have a decoding. *)
Theorem C72_decodable j : (exists d, decodes j d) <-> decodable j.
Proof.
  split; [intros [d D]; exact (proj1 decodes_decodable_all j d D)|]. induction 1 as [|b|l R|us U|js _ IH|ms N U _ IH].
  - exists VNil. constructor.
  - eexists. constructor.
  - apply in_range_read in R. destruct R as [f F]. eexists. constructor. exact F.
  - apply unicode_string in U. destruct U as (s & rs & U & ->). eexists. constructor. exact U.
  - assert (X : exists vs, decodes_list js vs).
    { induction js as [|j js IHl]; [exists []; constructor|]. destruct (IH j (or_introl eq_refl)) as [v D]. destruct (IHl (fun j Hj => IH j (or_intror Hj))) as [vs L]. exists (v :: vs). constructor; assumption. }
    destruct X as [vs L]. eexists. constructor. exact L.
  - assert (X : exists es, decodes_members ms es).
    { clear N. induction ms as [|[k j] ms IHl]; [exists []; constructor|]. destruct (IH k j (or_introl eq_refl)) as [v D]. destruct (proj1 (unicode_string k) (U k j (or_introl eq_refl))) as (s & rs & Us & ->).
      destruct (IHl (fun k j Hj => U k j (or_intror Hj)) (fun k j Hj => IH k j (or_intror Hj))) as [es L]. exists ((VStr s, v) :: es). constructor; assumption. }
    destruct X as [es L]. eexists. econstructor; [exact L | apply (members_nodup ms es L), N | apply Permutation_refl].
Qed.

(** ** Concrete cases *)
(** map[string]interface{}{"k": []interface{}{-0.1, nil, true}, "j": "<"} *)
Definition gx_list : val := VSlice [VIface (TFloat true) (VFloat tenth); VNil; VIface TBool (VBool true)].
Definition gx_es : list (val * val) := [(VStr (lit "k"), VIface list_t gx_list); (VStr (lit "j"), VIface TString (VStr (lit "<")))].
Definition gx_out : bytes := lit "{""j"":""\u003c"",""k"":[-0.1,null,true]}".

Lemma ascii1 c : 0 <= c < 128 -> utf8_string [c] [c].
Proof. intros Hc. assert (X := us_cons c [] []). rewrite utf8_ascii in X by lia. apply X; [left; lia | constructor]. Qed.
Lemma gx_generic es : Permutation gx_es es -> generic dict_t (VMap es).
Proof.
  intros P. assert (G : forall k v, In (k, v) es -> (exists s rs, k = VStr s /\ utf8_string s rs) /\ generic any_t v).
  { intros k v Hi. apply (Permutation_in _ (Permutation_sym P)) in Hi. destruct Hi as [Hi|[Hi|[]]]; injection Hi as <- <-.
    - split; [exists [107], [107]; split; [reflexivity | apply ascii1; lia]|]. apply g_some; [discriminate|]. constructor.
      intros v Hv. destruct Hv as [<-|[<-|[<-|[]]]]; [apply g_some; [discriminate|]; constructor; vm_compute; intuition discriminate | constructor | apply g_some; [discriminate | constructor]].
    - split; [exists [106], [106]; split; [reflexivity | apply ascii1; lia]|]. apply g_some; [discriminate|]. apply (g_str [60] [60]). apply ascii1. lia. }
  constructor; [eapply Permutation_NoDup; [apply Permutation_map, P | repeat constructor; cbn; intuition discriminate] | intros k v Hi; apply (G k v Hi) | intros k v Hi; apply (G k v Hi)].
Qed.
Lemma fl_no_methods : no_methods flH. Proof. intros t k _. split; reflexivity. Qed.
Lemma fl_sort : sort_ok flH. Proof. exact (constH_sort [] (fun _ _ => false) (fun _ _ _ => inl l_null)). Qed.
Lemma fl_insensitive : insensitive fl_vcall. Proof. intros k t v v' c _. reflexivity. Qed.
Lemma gx_holds es : es = gx_es \/ es = rev gx_es -> holds flH (mem_of flH dict_t (VMap es)) dict_t (word_of flH dict_t (VMap es)) (VMap es).
Proof. intros He. apply (c_holds flH _ _ _ _ [] default_opts). apply (Properties_Lossless.fl_call 10); [reflexivity|]. destruct He as [-> | ->]; vm_compute; reflexivity. Qed.

Example C72_example : marshal_returns flH (mem_of flH dict_t (VMap gx_es)) (Some (dict_t, word_of flH dict_t (VMap gx_es))) [] (MOk gx_out) /\
  exists j, json_text false j gx_out /\ decodes j (VIface dict_t (VMap gx_es)) /\ decodes j (VIface dict_t (VMap (rev gx_es))) /\ ~ decodes j (VIface dict_t (VMap [])).
Proof.
  assert (P : Permutation gx_es (rev gx_es)) by (apply Permutation_rev).
  assert (R : marshal_returns flH (mem_of flH dict_t (VMap gx_es)) (Some (dict_t, word_of flH dict_t (VMap gx_es))) [] (MOk gx_out)) by (exists 20%nat; split; [vm_compute; reflexivity | discriminate]).
  split; [exact R|].
  destruct (C72_roundtrip flH fl_vcall _ dict_t _ (VMap gx_es) [] default_opts fl_ok shortest_dec_exact fl_sort fl_no_methods (conj eq_refl eq_refl) (gx_generic _ (Permutation_refl _)) ltac:(discriminate) (gx_holds _ (or_introl eq_refl)) eq_refl)
    as (out & R' & (j & Hj) & Q). assert (E := marshal_returns_det _ _ _ _ _ _ R' R). injection E as ->.
  exists j. split; [exact Hj|]. split; [apply (Q j Hj); eexists; split; [reflexivity | apply sh_refl]|]. split.
  - apply (Q j Hj). eexists. split; [reflexivity|]. apply (sh_map gx_es (rev gx_es) (rev gx_es) P). apply Forall2_refl. intros x. split; apply sh_refl.
  - intros D. apply (Q j Hj) in D. destruct D as (v' & Ev & S). injection Ev as <-. inversion S as [| | | | | |? e1 ? P1 F|]; subst. inversion F; subst. apply Permutation_length in P1. discriminate.
Qed.
(** The other order gives the same document. *)
Example C72_ex_stable r : marshal_returns flH (mem_of flH dict_t (VMap (rev gx_es))) (Some (dict_t, word_of flH dict_t (VMap (rev gx_es)))) [] r <-> r = MOk gx_out.
Proof.
  destruct C72_example as (R & j & Hj & _ & D & _).
  refine (C72_stable flH fl_vcall _ dict_t _ (VMap gx_es) [] default_opts gx_out fl_ok shortest_dec_exact fl_sort fl_insensitive fl_no_methods (conj eq_refl eq_refl) eq_refl (gx_generic _ (Permutation_refl _)) ltac:(discriminate)
    (gx_holds _ (or_introl eq_refl)) eq_refl R j _ _ _ _ Hj D (gx_holds _ (or_intror eq_refl)) r).
Qed.

(** The text   [ 1.0e1 , "\u0061" ]   is brought into the form [10,"a"]. *)
Ltac some_digits := split; [discriminate | repeat (apply Forall_cons; [unfold digit; lia|]); apply Forall_nil].
Definition ten : fval := FFin false (Z.to_pos (5 * 2 ^ 50)) (-49).
Definition nf_v : val := VSlice [VIface (TFloat true) (VFloat ten); VIface TString (VStr (lit "a"))].
Example C72_ex_normal_form : (exists j, json_text false j (lit " [ 1.0e1 , ""\u0061"" ] ") /\ decodes j (VIface list_t nf_v)) /\
  (forall r, marshal_returns flH (mem_of flH list_t nf_v) (Some (list_t, word_of flH list_t nf_v)) [] r <-> r = MOk (lit "[10,""a""]")).
Proof.
  assert (D : decodes (JArr [JNum (lit "1.0e1"); JStr (flat_map utf16 [97])]) (VIface list_t nf_v)).
  { apply dc_arr. constructor; [|constructor; [|constructor]].
    - apply dc_num. exists 10, 0. split.
      + apply (nv_pos [49] [46; 48] [48] [101; 49] 1); [apply jint_pos; [lia | constructor] | right; split; [reflexivity | some_digits] | apply (ev_plain 101 [49]); [lia | some_digits]].
      + apply inside_rounds; [vm_compute; intuition discriminate | reflexivity | reflexivity | vm_compute; reflexivity].
    - apply (dc_str [97] [97]). apply ascii1. lia. }
  split.
  - eexists. split; [|exact D].
    destruct (parse_strict (lit " [ 1.0e1 , ""\u0061"" ] ")) as [j|] eqn:E; [|vm_compute in E; discriminate]. assert (X := E). vm_compute in X. injection X as <-. apply parse_strict_correct; [apply lit_bytes|]. exact E.
  - assert (Hh : holds flH (mem_of flH list_t nf_v) list_t (word_of flH list_t nf_v) nf_v).
    { apply (c_holds flH _ _ _ _ [] default_opts). apply (Properties_Lossless.fl_call 10); [reflexivity | vm_compute; reflexivity]. }
    destruct (C72_normal_form flH fl_vcall _ list_t nf_v _ _ [] default_opts fl_ok shortest_dec_exact fl_sort fl_insensitive fl_no_methods (conj eq_refl eq_refl) eq_refl D Hh eq_refl) as (out & R & _).
    assert (R' : marshal_returns flH (mem_of flH list_t nf_v) (Some (list_t, word_of flH list_t nf_v)) [] (MOk (lit "[10,""a""]"))) by (exists 20%nat; split; [vm_compute; reflexivity | discriminate]).
    apply R in R'. injection R' as <-. exact R.
Qed.

(** Numbers out of range and names given twice have no decoding. *)
Example C72_ex_decodable : decodable (JArr [JNum (lit "0.5"); JNull]) /\ ~ decodable (JNum (lit "1e400")) /\ ~ decodable (JObj [([U16 97], JNull); ([U16 97], JNull)]).
Proof.
  split; [|split].
  - constructor. intros j [<-|[<-|[]]]; [|constructor]. constructor. exists 5, (-1). split; [|reflexivity].
    apply (nv_pos [48] [46; 53] [53] [] 0); [constructor | right; split; [reflexivity | some_digits] | constructor].
  - intros D. inversion D as [| |? R| | |]; subst. destruct R as (M & K & V & L).
    assert (V' : num_value (lit "1e400") 1 400) by (apply (nv_pos [49] [] [] [101; 52; 48; 48] 400); [apply jint_pos; [lia | constructor] | left; auto | apply (ev_plain 101 [52; 48; 48]); [lia | some_digits]]).
    destruct (num_value_det _ _ _ _ _ V V') as [-> ->]. revert L. vm_compute. discriminate.
  - intros D. inversion D as [| | | | |? N]; subst. inversion N as [|? ? Hn]; subst. apply Hn. left. reflexivity.
Qed.

(** The conditions on strings are needed: the byte 255 is written as an escape
    of U+FFFD, what that decodes to is written without one. *)
Theorem C72_utf8_refuted : exists s s' j out out',
  marshal_returns flH (mem_of flH TString (VStr s)) (Some (TString, word_of flH TString (VStr s))) [] (MOk out) /\ json_text false j out /\ decodes j (VIface TString (VStr s')) /\
  marshal_returns flH (mem_of flH TString (VStr s')) (Some (TString, word_of flH TString (VStr s'))) [] (MOk out') /\ out' <> out.
Proof.
  exists [255], (utf8 0xFFFD), (JStr (flat_map utf16 [0xFFFD])), (lit """\ufffd"""), ([34] ++ utf8 0xFFFD ++ [34]).
  split; [exists 5%nat; split; [vm_compute; reflexivity | discriminate]|]. split.
  - destruct (parse_strict (lit """\ufffd""")) as [j|] eqn:E; [|vm_compute in E; discriminate]. assert (X := E). vm_compute in X. injection X as <-. apply parse_strict_correct; [apply lit_bytes|]. exact E.
  - split; [constructor; assert (X := us_cons 0xFFFD [] []); rewrite app_nil_r in X; apply X; [right; lia | constructor]|]. split; [exists 5%nat; split; [vm_compute; reflexivity | discriminate] | vm_compute; discriminate].
Qed.

Print Assumptions C72_roundtrip.
Print Assumptions C72_stable.
Print Assumptions C72_canonical.
Print Assumptions C72_normal_form.
Print Assumptions C72_decodable.
Print Assumptions C72_utf8_refuted.
