(** C57: when the objects of a document have distinct member names. *)
From Coq Require Import Permutation.
From Verif Require Import Base Utf8 JsonSpec OptionsModel EscapeModel EscapeProof NumberProof JsonParse IntModel IntProof TypesModel TypesFacts TagsModel TagsProof FloatModel FloatProof FloatSpec FloatShort LeafModel LeafProof
  MemModel FieldsSpec FieldsModel FieldsProof FieldsThm InstrModel ExecModel ValueModel ExecProof HostFacts VencFacts MarshalThm DocSpec EntriesFacts DocLeaf PartFacts DocProof SafeProof ApiFacts PartsThm ShapeThm CallFacts
  ExampleHost ExampleVals ExampleConst ExampleRead Properties_Options Properties_Strings Properties_Numbers Properties_Members Properties_Maps Properties_Fields Properties_Floats Properties_Api Properties_Lossless.

(** No object in the JSON value has two members of the same name. *)
Inductive distinct : jval -> Prop :=
| di_null : distinct JNull
| di_bool b : distinct (JBool b)
| di_num l : distinct (JNum l)
| di_str us : distinct (JStr us)
| di_arr js : (forall j, In j js -> distinct j) -> distinct (JArr js)
| di_obj ms : NoDup (map fst ms) -> (forall j, In j (map snd ms) -> distinct j) -> distinct (JObj ms).

Scheme doc_m := Minimality for doc Sort Prop
  with elems_m := Minimality for doc_elems Sort Prop
  with key_m := Minimality for doc_key Sort Prop
  with entries_m := Minimality for doc_entries Sort Prop
  with sync_m := Minimality for doc_sync Sort Prop
  with fields_m := Minimality for doc_fields Sort Prop.

(** Different keys of a map have no name in common. *)
Definition apart {A} (N : A -> list cu -> Prop) (ks : list A) : Prop := ForallOrdPairs (fun k k' => forall us, N k us -> ~ N k' us) ks.

Lemma apart_nodup {A} (N : A -> list cu -> Prop) ks uss : apart N ks -> Forall2 N ks uss -> NoDup uss.
Proof.
  intros A0 F. revert uss F. induction A0 as [|k ks Hk _ IH]; intros uss F; inversion F as [|? us ? uss' Hu F' E1 E2]; subst; constructor; [|apply IH; exact F'].
  intros Hi. rewrite Forall_forall in Hk. clear IH F. induction F' as [|k' us' ks uss' Hu' F' IH]; [destruct Hi|]. destruct Hi as [->|Hi].
  - exact (Hk k' (or_introl eq_refl) us Hu Hu').
  - apply IH; [|exact Hi]. intros x Hx. apply Hk. right. exact Hx.
Qed.

Section Names.
  Variable H : host.
  Variable vcall : mkind -> typ -> val -> option Z -> bytes + Z.
  Hypothesis OK : host_ok H vcall.
  Variable o : encOpts.
  Variable m : mem.
  Notation E := (h_env H).
  Notation Doc := (doc H vcall o).

  Definition sync_name (k : val) (us : list cu) : Prop := exists kt k', k = VIface kt k' /\ doc_key H vcall o kt (is_ptr H kt) k' us.

  (** One part of a value brings no duplicate: JSON that the user gives has
      none, the keys of a map have different names. *)
  Definition names_ok (x : node) : Prop :=
    let '(t, ca, q, v) := x in
    (forall vs b j, t = TRawMessage -> v = VSlice vs -> vbytes vs = Some b -> json_text true j b -> distinct j) /\
    (forall es, t = TSyncMap -> v = VSync es -> apart sync_name (map fst es)) /\
    (forall k hp td w b j, native t = false -> method_of H t ca = Some (k, hp) -> receiver H t hp v td w -> vcall k td w (ctx_of o k) = inl b -> result_means k b j -> distinct j) /\
    (forall kt et es, DocSpec.plain H t ca -> under E t = TMap kt et -> v = VMap es -> apart (doc_key H vcall o kt false) (map fst es)).

  Definition ready (x : node) : Prop := held H m x /\ forall y, part H o x y -> readable_node H o y /\ names_ok y.

  Lemma ready_child x y : ready x -> child H o x y -> ready y.
  Proof. intros [Hh Ha] Hc. split; [eapply child_held; eauto|]. intros z Hz. apply Ha. eapply part_step; eauto. Qed.
  Lemma ready_here x : ready x -> names_ok x.
  Proof. intros [_ Ha]. apply Ha. constructor. Qed.

  Lemma obj_perm ms ms' : Permutation ms ms' -> distinct (JObj ms) -> distinct (JObj ms').
  Proof.
    intros P D. inversion D as [| | | | |? N V]; subst. constructor.
    - eapply Permutation_NoDup; [apply Permutation_map; exact P | exact N].
    - intros j Hj. apply V. eapply Permutation_in; [apply Permutation_map, Permutation_sym; exact P | exact Hj].
  Qed.

  Lemma doc_distinct t ca q v j : Doc t ca q v j -> ready (t, ca, q, v) -> distinct j.
  Proof.
    intros D. revert t ca q v j D.
    apply (doc_m H vcall o
      (fun t ca q v j => ready (t, ca, q, v) -> distinct j)
      (fun e ca vs js => (forall v, In v vs -> ready (e, ca, false, v)) -> forall j, In j js -> distinct j)
      (fun kt ca k us => doc_key H vcall o kt ca k us)
      (fun kt et es ms => (forall k v, In (k, v) es -> ready (et, false, false, v)) -> (forall j, In j (map snd ms) -> distinct j) /\ Forall2 (doc_key H vcall o kt false) (map fst es) (map fst ms))
      (fun es ms => (forall k vt v, In (k, VIface vt v) es -> ready (vt, is_ptr H vt, false, v)) -> (forall j, In j (map snd ms) -> distinct j) /\ Forall2 sync_name (map fst es) (map fst ms))
      (fun t ca v fs ms => (forall f ft x, In f fs -> shown H o t v f ft x -> ready (ft, ca, quoted H f ft, x)) -> NoDup (map f_name fs) -> (forall f, In f fs -> exists rs, utf8_string (f_name f) rs) ->
         (forall j, In j (map snd ms) -> distinct j) /\ NoDup (map fst ms) /\ forall us, In us (map fst ms) -> exists f, In f fs /\ string_units (f_name f) us)).
    all: try (intros; constructor; fail).
    - (* raw *) intros ca q vs b j Hb Hj R. apply ready_here in R. exact (proj1 R vs b j eq_refl eq_refl Hb Hj).
    - (* sync *) intros ca q es ms ms' _ IH P R. apply (obj_perm _ _ P). destruct IH as [V N]; [intros k vt v Hi; eapply ready_child; [exact R | eapply ch_sval; exact Hi]|].
      constructor; [|exact V]. apply ready_here in R. eapply apart_nodup; [|exact N]. exact (proj1 (proj2 R) es eq_refl eq_refl).
    - (* method *) intros t ca q k hp v td w b j Hn Hm Hr Hc Hj R. apply ready_here in R. exact (proj1 (proj2 (proj2 R)) k hp td w b j Hn Hm Hr Hc Hj).
    - (* iface *) intros t ca q ms td v j P U _ IH R. destruct ms as [ms|].
      + exfalso. destruct R as [_ R]. destruct (R _ (part_refl _ _ _)) as [R1 _]. assert (X := readable_plain H o t ca q _ (proj1 P) R1). rewrite (proj2 P), U in X. exact X.
      + apply IH. eapply ready_child; [exact R|]. apply ch_iface; assumption.
    - (* ptr *) intros t ca q e v j P U _ IH R. apply IH. eapply ready_child; [exact R|]. apply ch_ptr; assumption.
    - (* nil slice *) intros t ca q e P U R. destruct (has _ _); constructor. intros j [].
    - (* slice *) intros t ca q e vs js P U B _ IH R. constructor. apply IH. intros v Hi. eapply ready_child; [exact R|]. eapply ch_slice; eassumption.
    - (* array *) intros t ca q n e vs js P U B _ IH R. constructor. apply IH. intros v Hi. eapply ready_child; [exact R|]. eapply ch_array; eassumption.
    - (* nil map *) intros t ca q kt et P U K R. destruct (has _ _); constructor; [constructor | intros j []].
    - (* map *) intros t ca q kt et es ms ms' P U K _ IH Pm R. apply (obj_perm _ _ Pm). destruct IH as [V N]; [intros k v Hi; eapply ready_child; [exact R|]; eapply ch_elem; eassumption|].
      constructor; [|exact V]. apply ready_here in R. eapply apart_nodup; [|exact N]. exact (proj2 (proj2 (proj2 R)) kt et es P U eq_refl).
    - (* struct *) intros t ca q fs0 k fs vs ms P U S _ IH R. assert (Ht := proj1 (proj1 R)).
      destruct IH as (V & N & _); [| exact (proj2 (C18_order_unique H vcall t k fs OK Ht S)) | |constructor; assumption].
      + intros f ft x Hf Hs. eapply ready_child; [exact R|]. eapply ch_field; eassumption.
      + intros f Hf. destruct (field_name_key H vcall OK k t fs f Ht S Hf) as (rs & _ & Hu & _). eauto.
    - (* elems *) intros e ca _ j [].
    - intros e ca v j vs js _ IH _ IHs R j' [<-|Hi]; [apply IH, R; left; reflexivity | apply IHs; [|exact Hi]; intros x Hx; apply R; right; exact Hx].
    - intros kt ca s us A B. apply K_str; assumption.
    - intros kt ca A B C. apply K_nil; assumption.
    - intros kt ca v us A B C D _. eapply K_text; eassumption.
    - intros kt ca v l A B C D _. apply K_int; assumption.
    - (* entries *) intros kt et _. split; [intros j [] | constructor].
    - intros kt et k us v j es ms Hk _ _ IH _ IHs R. destruct IHs as [V N]; [intros k' v' Hi; apply (R k' v'); right; exact Hi|].
      split; [|constructor; assumption]. intros j' [<-|Hi]; [apply IH, (R k v); left; reflexivity | apply V, Hi].
    - (* entries of a sync.Map *) intros _. split; [intros j [] | constructor].
    - intros kt k us vt v j es ms Hk _ _ IH _ IHs R. destruct IHs as [V N]; [intros k' vt' v' Hi; apply (R k' vt' v'); right; exact Hi|].
      split; [|constructor; [exists kt, k; split; [reflexivity | exact Hk] | assumption]]. intros j' [<-|Hi]; [apply IH, (R (VIface kt k) vt v); left; reflexivity | apply V, Hi].
    - (* fields *) intros t ca v _ _ _. split; [intros j []|]. split; [constructor | intros us []].
    - intros t ca v f fs ms _ _ IH R N U. inversion N as [|? ? N1 N2]; subst. destruct IH as (A & B & C); [intros; eapply R; eauto; right; assumption | exact N2 | intros; apply U; right; assumption|].
      split; [exact A|]. split; [exact B|]. intros us Hu. destruct (C us Hu) as (g & Hg & Hs). exists g. split; [right; exact Hg | exact Hs].
    - intros t ca v f fs ms ft x _ _ _ _ _ IH R N U. inversion N as [|? ? N1 N2]; subst. destruct IH as (A & B & C); [intros; eapply R; eauto; right; assumption | exact N2 | intros; apply U; right; assumption|].
      split; [exact A|]. split; [exact B|]. intros us Hu. destruct (C us Hu) as (g & Hg & Hs). exists g. split; [right; exact Hg | exact Hs].
    - intros t ca v f fs ms ft x us j Sh _ IHj _ Hus _ IH R N U. inversion N as [|? ? N1 N2]; subst. destruct IH as (A & B & C); [intros; eapply R; eauto; right; assumption | exact N2 | intros; apply U; right; assumption|].
      split; [intros j' [<-|Hi]; [apply IHj; eapply R; [left; reflexivity | exact Sh] | apply A, Hi]|]. split.
      + constructor; [|exact B]. intros Hi. destruct (C us Hi) as (g & Hg & Hs). destruct (U f (or_introl eq_refl)) as [rs Hr]. destruct (U g (or_intror Hg)) as [rs' Hr'].
        apply N1. rewrite (text_inj _ _ _ _ _ Hr Hr' Hus Hs). apply List.in_map, Hg.
      + intros us' [<-|Hi]; [exists f; split; [left; reflexivity | exact Hus]|]. destruct (C us' Hi) as (g & Hg & Hs). exists g. split; [right; exact Hg | exact Hs].
  Qed.

  (** ** Values inside the document *)
  Lemma elems_in e ca vs js v : doc_elems H vcall o e ca vs js -> In v vs -> exists j, Doc e ca false v j /\ In j js.
  Proof. induction 1 as [|e ca v' j vs js D _ IH]; intros Hi; [destruct Hi|]; destruct Hi as [->|Hi]; [exists j; split; [exact D | left; reflexivity]|]. destruct (IH Hi) as (j' & A & B). exists j'. split; [exact A | right; exact B]. Qed.
  Lemma entries_in kt et es ms k v : doc_entries H vcall o kt et es ms -> In (k, v) es -> exists j, Doc et false false v j /\ In j (map snd ms).
  Proof. induction 1 as [|kt et k' us v' j es ms Hk D _ IH]; intros Hi; [destruct Hi|]; destruct Hi as [[= -> ->]|Hi]; [exists j; split; [exact D | left; reflexivity]|]. destruct (IH Hi) as (j' & A & B). exists j'. split; [exact A | right; exact B]. Qed.
  Lemma sync_in es ms k vt v : doc_sync H vcall o es ms -> In (k, VIface vt v) es -> exists j, Doc vt (is_ptr H vt) false v j /\ In j (map snd ms).
  Proof. induction 1 as [|kt k' us vt' v' j es ms Hk D _ IH]; intros Hi; [destruct Hi|]; destruct Hi as [[= _ -> ->]|Hi]; [exists j; split; [exact D | left; reflexivity]|]. destruct (IH Hi) as (j' & A & B). exists j'. split; [exact A | right; exact B]. Qed.
  Lemma fields_in t ca v fs ms f ft x : doc_fields H vcall o t ca v fs ms -> In f fs -> shown H o t v f ft x -> ~ drops_null H f ft -> exists j, Doc ft ca (quoted H f ft) x j /\ In j (map snd ms).
  Proof.
    induction 1 as [|t ca v f' fs ms Hh _ IH|t ca v f' fs ms ft' x' Sh Dn _ _ IH|t ca v f' fs ms ft' x' us j Sh D _ _ _ IH]; intros Hi S N; [destruct Hi| | |].
    - destruct Hi as [->|Hi]; [destruct (shown_not_hidden H o t v f ft x S Hh) | auto].
    - destruct Hi as [->|Hi]; [destruct (shown_det H o t v f _ _ _ _ S Sh) as [-> ->]; contradiction | auto].
    - destruct Hi as [->|Hi].
      + destruct (shown_det H o t v f _ _ _ _ S Sh) as [-> ->]. exists j. split; [exact D | left; reflexivity].
      + destruct (IH Hi S N) as (j' & A & B). exists j'. split; [exact A | right; exact B].
  Qed.
  Lemma entries_names kt et es ms : doc_entries H vcall o kt et es ms -> Forall2 (doc_key H vcall o kt false) (map fst es) (map fst ms).
  Proof. induction 1; constructor; assumption. Qed.
  Lemma sync_names es ms : doc_sync H vcall o es ms -> Forall2 sync_name (map fst es) (map fst ms).
  Proof. induction 1 as [|kt k us vt v j es ms Hk _ _ IH]; constructor; [|exact IH]. exists kt, k. split; [reflexivity | exact Hk]. Qed.

  Lemma perm_obj ms ms' : Permutation ms ms' -> distinct (JObj ms') -> NoDup (map fst ms) /\ forall j, In j (map snd ms) -> distinct j.
  Proof. intros P D. apply Permutation_sym in P. assert (X := obj_perm _ _ P D). inversion X; subst. split; assumption. Qed.

  Ltac others D P U := inversion D; subst; destruct P as [P1 P2]; try discriminate P1; try congruence;
    try (match goal with X : isBasicType _ _ = true |- _ => unfold isBasicType, isBoolean, isString, isInteger, isFloatingPoint in X; rewrite U in X; discriminate X end).

  Lemma child_doc x y j : inner_child H o x y -> let '(t, ca, q, v) := x in Doc t ca q v j ->
    let '(t', ca', q', v') := y in exists j', Doc t' ca' q' v' j' /\ (distinct j -> distinct j').
  Proof.
    intros Hc. destruct Hc as [t ca q e v P U|t ca q td v P U|t ca q e vs v P U B Hi|t ca q n e vs v P U B Hi|t ca q kt et es k v P U K Hi|t ca q fs0 n fs vs f ft x P U S Hi Sh Dn|ca q es k vt v Hi]; intros D.
    - others D P U. match goal with X : under E t = TPtr ?e0, Y : Doc ?e0 _ _ _ _ |- _ => assert (e0 = e) by congruence; subst e0; exists j; split; [exact Y | auto] end.
    - others D P U. match goal with Y : Doc td _ _ _ _ |- _ => exists j; split; [exact Y | auto] end.
    - others D P U. match goal with X : under E t = TSlice ?e0, Y : doc_elems _ _ _ ?e0 _ _ _ |- _ => assert (e0 = e) by congruence; subst e0; destruct (elems_in _ _ _ _ _ Y Hi) as (j' & A & I) end.
      exists j'. split; [exact A|]. intros X. inversion X; subst. auto.
    - others D P U. match goal with X : under E t = TArray _ ?e0, Y : doc_elems _ _ _ ?e0 _ _ _ |- _ => assert (e0 = e) by congruence; subst e0; destruct (elems_in _ _ _ _ _ Y Hi) as (j' & A & I) end.
      + exists j'. split; [exact A|]. intros X. inversion X; subst. auto.
      + exfalso. match goal with X : under E t = TArray _ ?e0, Y : byte_elem H ?e0 = true |- _ => assert (e0 = e) by congruence; subst e0; rewrite Y in B end. cbn [andb] in B. congruence.
    - others D P U. match goal with X : under E t = TMap ?k0 ?e0, Y : doc_entries _ _ _ ?k0 ?e0 _ _ |- _ => assert (k0 = kt) by congruence; assert (e0 = et) by congruence; subst k0 e0; destruct (entries_in _ _ _ _ _ _ Y Hi) as (j' & A & I) end.
      exists j'. split; [exact A|]. intros X. match goal with Y : Permutation _ _ |- _ => exact (proj2 (perm_obj _ _ Y X) j' I) end.
    - others D P U. match goal with X : structFields H _ t = Some ?fs1, Y : doc_fields _ _ _ _ _ _ ?fs1 _ |- _ => assert (fs1 = fs) by (eapply structFields_det; eauto); subst fs1; destruct (fields_in _ _ _ _ _ _ _ _ Y Hi Sh Dn) as (j' & A & I) end.
      exists j'. split; [exact A|]. intros X. inversion X; subst. auto.
    - inversion D; subst; try discriminate; try (match goal with X : DocSpec.plain _ _ _ |- _ => destruct X as [X _]; discriminate X end).
      match goal with Y : doc_sync _ _ _ _ _ |- _ => destruct (sync_in _ _ _ _ _ Y Hi) as (j' & A & I) end.
      exists j'. split; [exact A|]. intros X. match goal with Y : Permutation _ _ |- _ => exact (proj2 (perm_obj _ _ Y X) j' I) end.
  Qed.

  Lemma inner_doc x y : inner H o x y -> forall j, (let '(t, ca, q, v) := x in Doc t ca q v j) ->
    let '(t', ca', q', v') := y in exists j', Doc t' ca' q' v' j' /\ (distinct j -> distinct j').
  Proof.
    induction 1 as [[[[t ca] q] v]|x y z Hc _ IH]; intros j D; [exists j; auto|].
    assert (X := child_doc x y j Hc). destruct x as [[[t ca] q] v], y as [[[t1 ca1] q1] v1]. destruct (X D) as (j1 & D1 & I1). specialize (IH j1 D1).
    destruct z as [[[t2 ca2] q2] v2]. destruct IH as (j2 & D2 & I2). exists j2. auto.
  Qed.

  (** The names of the entries of a map whose document has no duplicates. *)
  Lemma map_names t ca q v j mt ca' q' kt et es : Doc t ca q v j -> distinct j -> inner H o (t, ca, q, v) (mt, ca', q', VMap es) -> DocSpec.plain H mt ca' -> under E mt = TMap kt et ->
    exists uss, Forall2 (doc_key H vcall o kt false) (map fst es) uss /\ NoDup uss.
  Proof.
    intros D Dj Hi P U. destruct (inner_doc _ _ Hi j D) as (j' & D' & Ij). specialize (Ij Dj). others D' P U.
    match goal with X : under E mt = TMap ?k0 ?e0, Y : doc_entries _ _ _ ?k0 ?e0 _ ?ms0, Z : Permutation ?ms0 _ |- _ => assert (k0 = kt) by congruence; assert (e0 = et) by congruence; subst k0 e0;
      exists (map fst ms0); split; [exact (entries_names _ _ _ _ Y) | exact (proj1 (perm_obj _ _ Z Ij))] end.
  Qed.
  Lemma sync_map_names t ca q v j ca' q' es : Doc t ca q v j -> distinct j -> inner H o (t, ca, q, v) (TSyncMap, ca', q', VSync es) ->
    exists uss, Forall2 sync_name (map fst es) uss /\ NoDup uss.
  Proof.
    intros D Dj Hi. destruct (inner_doc _ _ Hi j D) as (j' & D' & Ij). specialize (Ij Dj). inversion D'; subst; try discriminate; try (match goal with X : DocSpec.plain _ _ _ |- _ => destruct X as [X _]; discriminate X end).
    match goal with Y : doc_sync _ _ _ _ ?ms0, Z : Permutation ?ms0 _ |- _ => exists (map fst ms0); split; [exact (sync_names _ _ Y) | exact (proj1 (perm_obj _ _ Z Ij))] end.
  Qed.
End Names.

(** The object members of a JSON text have distinct names. *)
Definition no_duplicates (s : bytes) : Prop := forall lax j, json_text lax j s -> distinct j.

(** The document of a value whose parts mean what they should (C30) has no
    duplicate members, unless JSON given by the user has some or two keys of one
    map have the same name.  Struct fields never cause any. *)
Theorem C57_distinct_partial H vcall m t w v opts o out lax : host_ok H vcall -> shortest_ok (h_shortest H) -> sort_ok H -> esc_on o ->
  call H m t w v opts o -> all_sound H vcall o lax (t, is_ptr H t, false, v) -> (forall y, part H o (t, is_ptr H t, false, v) y -> names_ok H vcall o y) ->
  marshal_returns H m (Some (t, w)) opts (MOk out) -> (exists j, json no_ws lax j out) /\ no_duplicates out.
Proof.
  intros OK SH SO ON C So N R. destruct (C30_json_partial H vcall m t w v opts o out lax OK SH SO ON C So R) as (j & D & J). split; [exists j; exact J|].
  intros lax' j' J'. assert (B : bytes_ok out) by (apply (proj1 (json_bytes lax) j out J)).
  assert (X : json_text lax j out) by (exists [], out, []; rewrite app_nil_r; repeat split; try constructor; eapply json_weaken_mut; [exact no_ws_ws | exact J]).
  rewrite (json_text_det lax' lax out j' j B J' X). apply (doc_distinct H vcall OK o m t (is_ptr H t) false v j D). split; [exact (call_held H vcall OK m t w v opts o C)|].
  intros y Hy. split; [exact (c_readable _ _ _ _ _ _ _ C y Hy) | exact (N y Hy)].
Qed.

(** Conversely the names of the entries of each map in such a document can be
    told apart. *)
Theorem C57_maps_needed H vcall m t w v opts o out lax mt ca q kt et es : host_ok H vcall -> shortest_ok (h_shortest H) -> sort_ok H -> esc_on o ->
  call H m t w v opts o -> all_sound H vcall o lax (t, is_ptr H t, false, v) -> marshal_returns H m (Some (t, w)) opts (MOk out) -> no_duplicates out ->
  inner H o (t, is_ptr H t, false, v) (mt, ca, q, VMap es) -> DocSpec.plain H mt ca -> under (h_env H) mt = TMap kt et ->
  exists uss, Forall2 (doc_key H vcall o kt false) (map fst es) uss /\ NoDup uss.
Proof.
  intros OK SH SO ON C So R N Hi P U. destruct (C30_json_partial H vcall m t w v opts o out lax OK SH SO ON C So R) as (j & D & J).
  assert (X : json_text lax j out) by (exists [], out, []; rewrite app_nil_r; repeat split; try constructor; eapply json_weaken_mut; [exact no_ws_ws | exact J]).
  exact (map_names H vcall o t (is_ptr H t) false v j mt ca q kt et es D (N lax j X) Hi P U).
Qed.

(** ** Values without user code, whose maps have string keys *)
Definition simple H (x : node) : Prop :=
  let '(t, ca, q, v) := x in t <> TRawMessage /\ t <> TSyncMap /\ (native t = false -> DocSpec.plain H t ca) /\
  (forall kt et, under (h_env H) t = TMap kt et -> isString (h_env H) kt = true) /\
  (forall fs0 n fs f, under (h_env H) t = TStruct fs0 -> structFields H n t = Some fs -> In f fs -> f_omitNil f = false).

(** Two keys are decoded to the same text only if they are the same text, or
    differ in bytes that are not UTF-8. *)
Definition same_text (k k' : val) : Prop := exists s s' us, k = VStr s /\ k' = VStr s' /\ string_units s us /\ string_units s' us.

Lemma string_key H vcall o kt ca k us : isString (h_env H) kt = true -> doc_key H vcall o kt ca k us -> exists s, k = VStr s /\ string_units s us.
Proof.
  intros S D. inversion D; subst; try congruence; [eauto|]. exfalso. match goal with X : isInteger _ _ = true |- _ => unfold isInteger, isString in *; destruct (under _ kt); discriminate end.
Qed.

Lemma simple_inner H o x y : (forall y, part H o x y -> simple H y) -> part H o x y -> inner H o x y.
Proof.
  intros S Hp. induction Hp as [x|x y z Hc Hp IH]; [constructor|].
  assert (Sx := S x (part_refl _ _ _)). apply (inner_step H o x y z); [|apply IH; intros y' Hy'; apply S; eapply part_step; eauto].
  destruct Hc as [t ca q e v P U|t ca q td v P U|t ca q e vs v P U B Hi|t ca q n e vs v P U B Hi|t ca q kt et es k v P U K Hi Es Nn|t ca q kt et es k v P U K Hi|t ca q fs0 n fs vs f ft x P U St Hi Sh|ca q es kt k v Hi|ca q es k vt v Hi].
  - apply ic_ptr; assumption.
  - apply ic_iface; assumption.
  - eapply ic_slice; eassumption.
  - eapply ic_array; eassumption.
  - destruct Sx as (_ & _ & _ & Sm & _). rewrite (Sm kt et U) in Es. discriminate.
  - eapply ic_elem; eassumption.
  - eapply ic_field; try eassumption. intros [Dn _]. destruct Sx as (_ & _ & _ & _ & Sf). rewrite (Sf fs0 n fs f U St Hi) in Dn. discriminate.
  - destruct Sx as (_ & X & _). destruct X. reflexivity.
  - destruct Sx as (_ & X & _). destruct X. reflexivity.
Qed.

Lemma apart_same H vcall o kt ca ks : isString (h_env H) kt = true ->
  (apart (doc_key H vcall o kt ca) ks <-> ForallOrdPairs (fun k k' => ~ same_text k k') ks).
Proof.
  intros S. split; intros A; induction A as [|k ks Hk _ IH]; constructor; auto; eapply Forall_impl; [|exact Hk| |exact Hk]; cbn; intros k' F.
  - intros (s & s' & us & -> & -> & U & U'). apply (F us); apply K_str; assumption.
  - intros us D D'. destruct (string_key H vcall o kt ca k us S D) as (s & -> & U). destruct (string_key H vcall o kt ca k' us S D') as (s' & -> & U'). apply F. exists s, s', us. auto.
Qed.

Theorem C57_exact H vcall m t w v opts o out lax : host_ok H vcall -> shortest_ok (h_shortest H) -> sort_ok H -> esc_on o ->
  call H m t w v opts o -> all_sound H vcall o lax (t, is_ptr H t, false, v) -> (forall y, part H o (t, is_ptr H t, false, v) y -> simple H y) ->
  marshal_returns H m (Some (t, w)) opts (MOk out) ->
  (no_duplicates out <-> forall t' ca q es, part H o (t, is_ptr H t, false, v) (t', ca, q, VMap es) -> ForallOrdPairs (fun k k' => ~ same_text k k') (map fst es)).
Proof.
  intros OK SH SO ON C So S R. split.
  - intros N t' ca q es Hp. destruct (S _ Hp) as (_ & _ & S3 & S4 & _). assert (Hi := simple_inner H o _ _ S Hp).
    assert (Hh := part_held H vcall OK o m _ _ (call_held H vcall OK m t w v opts o C) Hp). destruct Hh as (_ & l & Hl). inversion Hl as [| | | | | | | | |? ? kt et ? ? ? U| | | |]; subst.
    assert (Nt : native t' = false) by (destruct t'; try reflexivity; discriminate U).
    destruct (C57_maps_needed H vcall m t w v opts o out lax t' ca q kt et es OK SH SO ON C So R N Hi (S3 Nt) U) as (uss & F & Nd). assert (Sk := S4 kt et U). clear - F Nd Sk.
    revert uss F Nd. induction (map fst es) as [|k ks IH]; intros uss F Nd; constructor; inversion F as [|? us ? uss' Hk F']; subst; inversion Nd as [|? ? N1 N2]; subst.
    + clear IH F. apply Forall_forall. intros k' Hk' (s & s' & us' & -> & -> & U & U'). destruct (forall2_pick _ _ _ F' _ Hk') as (us1 & I1 & D1).
      destruct (string_key H vcall o kt false _ us Sk Hk) as (s0 & [= <-] & V). destruct (string_key H vcall o kt false _ us1 Sk D1) as (s1 & [= <-] & V').
      rewrite <- (string_units_det _ _ _ U V), (string_units_det _ _ _ U' V') in N1. contradiction.
    + eapply IH; eassumption.
  - intros A. refine (proj2 (C57_distinct_partial H vcall m t w v opts o out lax OK SH SO ON C So _ R)). intros y Hy. assert (Sy := S y Hy). destruct y as [[[t' ca] q] v'].
    destruct Sy as (S1 & S2 & S3 & S4 & _). split; [intros; contradiction|]. split; [intros; contradiction|]. split.
    + intros k hp td w0 b j Nt Hm _ _ _. destruct (S3 Nt) as [_ X]. congruence.
    + intros kt et es _ U ->. apply apart_same; [eapply S4; eauto|]. eapply A; eassumption.
Qed.

(** Go's maps have distinct keys; keys that are valid UTF-8 then have distinct
    names, and so have integers. *)
Lemma utf8_keys_apart ks : NoDup ks -> (forall k, In k ks -> exists s rs, k = VStr s /\ utf8_string s rs) -> ForallOrdPairs (fun k k' => ~ same_text k k') ks.
Proof.
  induction 1 as [|k ks Hk _ IH]; intros A; constructor; [|apply IH; intros; apply A; right; assumption].
  apply Forall_forall. intros k' Hk' (s & s' & us & -> & -> & U & U'). destruct (A _ (or_introl eq_refl)) as (s0 & rs & [= <-] & V). destruct (A _ (or_intror Hk')) as (s1 & rs' & [= <-] & V').
  rewrite (text_inj _ _ _ _ _ V V' U U') in Hk. contradiction.
Qed.
Theorem C57_integer_keys H vcall o kt k es : under (h_env H) kt = TInt k -> DocSpec.plain H kt false -> h_impl H kt MText = false -> NoDup (map fst es) -> apart (doc_key H vcall o kt false) (map (@fst val val) es).
Proof.
  intros U P Im N. induction N as [|k0 ks Hk _ IH]; constructor; [|exact IH]. apply Forall_forall. intros k' Hk' us D D'.
  assert (Inv : forall x, doc_key H vcall o kt false x us -> exists n l, x = VInt n /\ us = map U16 l /\ int_lit l n).
  { intros x Dx. inversion Dx as [? ? s us0 Es|? ? Es E1|? ? ? us0 Es E1 Eo Dd|? ? ? l Es E1 Eo Dd]; subst; try congruence.
    - unfold isString in Es. rewrite U in Es. discriminate.
    - clear Dx. destruct P as [P1 P2]. inversion Dd; subst; try discriminate P1; try congruence; eauto. }
  destruct (Inv _ D) as (n & l & -> & -> & L). destruct (Inv _ D') as (n' & l' & -> & E & L').
  assert (El : l = l') by (clear - E; revert l' E; induction l as [|c l IH]; intros [|c' l'] E; try discriminate E; [reflexivity|]; injection E as -> E; f_equal; apply IH, E).
  subst l'. rewrite (int_lit_det _ _ _ L L') in Hk. contradiction.
Qed.

(** The statement without conditions on user code and keys. *)
Definition always_distinct H : Prop := forall m t w v opts o out, esc_on o -> call H m t w v opts o -> marshal_returns H m (Some (t, w)) opts (MOk out) -> no_duplicates out.

(** map[string]int{"\xff": 1, "\xfe": 2} *)
Definition dup_v : val := VMap [(VStr [255], VInt 1); (VStr [254], VInt 2)].
Definition dup_t : typ := TMap TString (TInt KInt).
Lemma dup_call : call mapH (mem_of mapH dup_t dup_v) dup_t (word_of mapH dup_t dup_v) dup_v [] default_opts.
Proof. apply (plain_call _ 10); vm_compute; reflexivity. Qed.
Definition dup_out : bytes := Eval vm_compute in
  match MarshalOpts mapH 12 (mem_of mapH dup_t dup_v) (Some (dup_t, word_of mapH dup_t dup_v)) [] with MOk b => b | _ => [] end.
Example dup_out_text : dup_out = lit "{""\ufffd"":2,""\ufffd"":1}".
Proof. reflexivity. Qed.
Lemma dup_returns : marshal_returns mapH (mem_of mapH dup_t dup_v) (Some (dup_t, word_of mapH dup_t dup_v)) [] (MOk dup_out).
Proof. exists 12%nat. split; [vm_compute; reflexivity | discriminate]. Qed.
Lemma dup_duplicates : ~ no_duplicates dup_out.
Proof.
  intros N. destruct (parse_json dup_out) as [j|] eqn:Ej; [|vm_compute in Ej; discriminate Ej].
  assert (X := N true j (proj1 (parse_json_correct dup_out j ltac:(apply bytes_okb_ok; vm_compute; reflexivity)) Ej)). vm_compute in Ej. injection Ej as <-.
  inversion X as [| | | | |? Nd _]; subst. inversion Nd as [|? ? Nn _]; subst. apply Nn. left. reflexivity.
Qed.
Theorem C57_distinct_refuted : host_ok mapH plainV /\ ~ always_distinct mapH.
Proof. split; [exact map_ok|]. intros A. assert (ON : esc_on default_opts) by (split; reflexivity). exact (dup_duplicates (A _ _ _ _ _ _ _ ON dup_call dup_returns)). Qed.

(** map[string]int with two keys *)
Section Small.
  Variables a b : bytes.
  Let v := VMap [(VStr a, VInt 1); (VStr b, VInt 2)].
  Lemma small_part y : part mapH default_opts (dup_t, is_ptr mapH dup_t, false, v) y -> y = (dup_t, false, false, v) \/ exists n, y = (TInt KInt, false, false, VInt n).
  Proof.
    intros Hp. inversion Hp as [x|x y' z Hc Hp']; subst; [left; reflexivity|]. right.
    assert (Y : exists n, y' = (TInt KInt, false, false, VInt n)).
    { inversion Hc as [| | | |? ? ? kt et es k x P U K Hi Es|? ? ? kt et es k x P U K Hi| | |]; subst; cbn in U; injection U as <- <-; [discriminate Es|]. destruct Hi as [[= <- <-]|[[= <- <-]|[]]]; eauto. }
    destruct Y as [n ->]. inversion Hp' as [x|x y1 z Hc1 _]; subst; [eauto|]. inversion Hc1; discriminate.
  Qed.
  Lemma small_simple y : part mapH default_opts (dup_t, is_ptr mapH dup_t, false, v) y -> simple mapH y.
  Proof.
    intros Hp. destruct (small_part y Hp) as [->|[n ->]].
    - split; [discriminate|]. split; [discriminate|]. split; [split; reflexivity|]. split; [intros kt et [= <- <-]; reflexivity | intros fs0 k fs f [=]].
    - split; [discriminate|]. split; [discriminate|]. split; [split; reflexivity|]. split; [intros kt et [=] | intros fs0 k fs f [=]].
  Qed.
  Lemma small_sound : all_sound mapH plainV default_opts false (dup_t, is_ptr mapH dup_t, false, v).
  Proof.
    intros y Hp. destruct (small_part y Hp) as [->|[n ->]]; [|exact I]. intros k x _ Es. discriminate Es.
  Qed.
  Lemma small_keys out : call mapH (mem_of mapH dup_t v) dup_t (word_of mapH dup_t v) v [] default_opts ->
    marshal_returns mapH (mem_of mapH dup_t v) (Some (dup_t, word_of mapH dup_t v)) [] (MOk out) -> (no_duplicates out <-> ~ same_text (VStr a) (VStr b)).
  Proof.
    intros C R. rewrite (C57_exact mapH plainV _ _ _ v [] default_opts out false map_ok ex_shortest (constH_sort _ _ _) ltac:(split; reflexivity) C small_sound small_simple R). split.
    - intros A. assert (X := A _ _ _ _ (part_refl _ _ _)). inversion X as [|? ? F _]; subst. inversion F; subst. assumption.
    - intros N t ca q es Hp. destruct (small_part _ Hp) as [E|[n E]]; [injection E as -> -> -> ->|discriminate E]. repeat constructor. exact N.
  Qed.
End Small.

(** {"a": 1, "b": 2} has no duplicates, the map above has. *)
Definition ab_v : val := VMap [(VStr (lit "a"), VInt 1); (VStr (lit "b"), VInt 2)].
Lemma ab_call : call mapH (mem_of mapH dup_t ab_v) dup_t (word_of mapH dup_t ab_v) ab_v [] default_opts.
Proof. apply (plain_call _ 10); vm_compute; reflexivity. Qed.
Example C57_ab : no_duplicates (lit "{""a"":1,""b"":2}").
Proof.
  apply (small_keys (lit "a") (lit "b") _ ab_call); [exists 12%nat; split; [vm_compute; reflexivity | discriminate]|].
  intros X. assert (F := utf8_keys_apart [VStr (lit "a"); VStr (lit "b")]). assert (A : forall c, 0 <= c < 128 -> utf8_string [c] [c]).
  { intros c Hc. assert (Y := us_cons c [] []). rewrite utf8_ascii in Y by lia. apply Y; [left; lia | constructor]. }
  assert (Fa := F ltac:(repeat constructor; cbn; intuition discriminate)).
  assert (Fb : ForallOrdPairs (fun k k' => ~ same_text k k') [VStr (lit "a"); VStr (lit "b")]).
  { apply Fa. intros k [<-|[<-|[]]]; [exists [97], [97] | exists [98], [98]]; (split; [reflexivity | apply A; lia]). }
  inversion Fb as [|? ? Y _]; subst. inversion Y; subst. contradiction.
Qed.
Example C57_dup : same_text (VStr [255]) (VStr [254]).
Proof.
  assert (A : forall c, 250 <= c -> string_units [c] [U16 0xFFFD]).
  { intros c Hc. exists [inr c]. split; [|reflexivity]. apply sg_bad; [|constructor]. intros r rest Hr E. unfold utf8, scalar in *.
    repeat match type of E with context [if ?x then _ else _] => destruct x eqn:?; cbn [app] in E end; injection E as E1 _; lia. }
  exists [255], [254], [U16 0xFFFD]. repeat split; apply A; lia.
Qed.

(** Values without user code and with UTF-8 keys (as in C54), under any nesting *)
Corollary C57_ordinary H vcall m t w v opts o out : host_ok H vcall -> shortest_ok (h_shortest H) -> sort_ok H -> esc_on o ->
  call H m t w v opts o -> kept H o t v -> unique_keys H o (t, is_ptr H t, false, v) ->
  marshal_returns H m (Some (t, w)) opts (MOk out) -> (exists j, json no_ws false j out) /\ no_duplicates out.
Proof.
  intros OK SH SO ON C K U R. apply (C57_distinct_partial H vcall m t w v opts o out false OK SH SO ON C (kept_sound H vcall o false t _ v K)); [|exact R].
  intros y Hy. destruct (kept_part _ _ _ _ _ _ K Hy) as (t' & ca & v' & -> & K'). assert (B := kept_bare _ _ _ _ K'). unfold bare in B.
  split; [intros vs b j -> _ _ _; destruct (B true) as [X _]; discriminate X|]. split; [intros es -> _; destruct (B true) as [X _]; discriminate X|]. split.
  - intros k hp td w0 b j _ Hm. destruct (B ca) as [_ X]. congruence.
  - intros kt et es _ Ut ->. inversion K' as [| | | | | | | | | | |? kt' et' es' _ Ut' Es Hes|]; subst. assert (kt' = kt) by congruence. subst kt'. apply apart_same; [exact Es|].
    apply utf8_keys_apart; [eapply U; exact Hy|]. intros k Hk. apply in_map_iff in Hk. destruct Hk as ([k0 x0] & <- & Hk). exact (proj1 (Hes _ _ Hk)).
Qed.
Example C57_ordinary_struct : exists out, marshal_returns flH (mem_of flH ls_t (ls_v VNil ls_es)) (Some (ls_t, word_of flH ls_t (ls_v VNil ls_es))) [] (MOk out) /\ no_duplicates out.
Proof.
  eexists. split; [exact C54_example_output|]. eapply (proj2 (C57_ordinary flH fl_vcall _ _ _ _ _ default_opts _ fl_ok (proj1 shortest_dec_exact) (constH_sort [] (fun _ _ => false) (fun _ _ _ => inl l_null)) ltac:(split; reflexivity) (ls_call VNil ls_es (or_introl eq_refl) (or_introl eq_refl)) (ls_kept VNil ls_es (or_introl eq_refl) (or_introl eq_refl)) (ls_unique VNil (or_introl eq_refl)) C54_example_output)).
Qed.
Example C57_two_integers : apart (doc_key mapH plainV default_opts (TInt KInt) false) [VInt 1; VInt (-1)].
Proof. apply (C57_integer_keys mapH plainV default_opts (TInt KInt) KInt [(VInt 1, VBool true); (VInt (-1), VBool true)]); try reflexivity; [split; reflexivity|]. repeat constructor; cbn; intuition discriminate. Qed.

Print Assumptions C57_ordinary.
Print Assumptions C57_distinct_partial.
Print Assumptions C57_maps_needed.
Print Assumptions C57_exact.
Print Assumptions C57_integer_keys.
Print Assumptions C57_distinct_refuted.
