(** C60: the encoding of a composite is made of the encodings of its parts, as
    separate calls of Marshal give them. *)
From Coq Require Import Permutation Sorted.
From Verif Require Import Base Utf8 JsonSpec NumberModel NumberProof OptionsModel EscapeModel EscapeProof JsonParse StrictParse CompactModel CompactProof IntModel IntProof TypesModel TypesFacts TagsModel CalendarSpec TimeModel TimeProof
  FloatModel FloatProof LeafModel LeafProof MemModel FieldsModel FieldsProof InstrModel ExecModel ValueModel ExecMono ExecProof HostFacts VencFacts MarshalThm DocSpec EntriesFacts DocLeaf PartFacts DocProof SafeProof ApiFacts
  PartsThm ShapeThm CallFacts MethodsThm ExampleHost ExampleConst ExampleRead Properties_Options Properties_Strings Properties_Numbers Properties_Fields Properties_Members Properties_Maps Properties_Api Properties_Marshalers.

Section Compose.
  Variable H : host.
  Variable vcall : mkind -> typ -> val -> option Z -> bytes + Z.
  Hypothesis OK : host_ok H vcall.
  Variable opts : list (option option_).
  Variable o : encOpts.
  Notation E := (h_env H).

  (** A call of Marshal on a value of type t alone, in any memory. *)
  Definition alone (t : typ) (v : val) (r : mres) : Prop := exists m w, call H m t w v opts o /\ marshal_returns H m (Some (t, w)) opts r.

  (** Types for which it does not matter whether a value is addressable: all but
      structs and arrays, unless only the pointer type has some method. *)
  Definition address_free (t : typ) : Prop :=
    is_ptr H t = true \/ native t = true \/
    ((forall k, h_impl H (TPtr t) k = true -> h_impl H t k = true) /\ (forall n e, under E t <> TArray n e) /\ (forall fs, under E t <> TStruct fs)).

  (** What Marshal gives for a part on its own: for the part itself, when it is
      not addressable or that does not matter; for its address, when the pointer
      type has no methods; for what it holds, when it is an interface. *)
  Inductive piece (ca : bool) (t : typ) (v : val) (r : mres) : Prop :=
  | pc_value : ca = false \/ address_free t -> alone t v r -> piece ca t v r
  | pc_address : ca = true -> (forall k, h_impl H (TPtr t) k = false) -> alone (TPtr t) (VPtr v) r -> piece ca t v r
  | pc_held td x : DocSpec.plain H t ca -> under E t = TIface None -> v = VIface td x -> alone td x r -> piece ca t v r
  | pc_nil ms : DocSpec.plain H t ca -> under E t = TIface ms -> v = VNil -> r = MOk (lit "null") -> piece ca t v r.

  (** All parts are encoded, or the first error is reported. *)
  Inductive joined (F : list bytes -> bytes -> Prop) : list mres -> mres -> Prop :=
  | j_ok bs out : F bs out -> joined F (map MOk bs) (MOk out)
  | j_error bs e rest : joined F (map MOk bs ++ MErr e :: rest) (MErr e).

  (** ** Results of nodes *)
  Definition node_result (x : node) (r : mres) : Prop := let '(t, ca, q, v) := x in exists n out err, venc H vcall o n t ca q v = VRet out err /\ r = outcome out err.
  Definition agrees (r : mres) (x : vres) : Prop := match x with VRet out err => r = outcome out err | VFuel => True | VOut => False end.

  Lemma node_agrees t ca q v r n : node_result (t, ca, q, v) r -> agrees r (venc H vcall o n t ca q v).
  Proof.
    intros (k & out & err & Hk & ->). unfold agrees. destruct (venc H vcall o n t ca q v) as [b e| |] eqn:En; [| |exact I].
    - assert (A := venc_mono H vcall o n (Nat.max n k) t ca q v ltac:(lia) ltac:(rewrite En; discriminate)).
      assert (B := venc_mono H vcall o k (Nat.max n k) t ca q v ltac:(lia) ltac:(rewrite Hk; discriminate)). congruence.
    - assert (A := venc_mono H vcall o n (Nat.max n k) t ca q v ltac:(lia) ltac:(rewrite En; discriminate)).
      assert (B := venc_mono H vcall o k (Nat.max n k) t ca q v ltac:(lia) ltac:(rewrite Hk; discriminate)). congruence.
  Qed.

  Lemma alone_node t v r : alone t v r -> node_result (t, is_ptr H t, false, v) r.
  Proof.
    intros (m & w & C & R). destruct (call_returns H vcall OK m t w v opts o C) as (out & err & A & B). apply B in R. subst r.
    apply encodes_inv in A. destruct A as [n Hn]. exists n, out, err. auto.
  Qed.

  Lemma method_of_addr t a a' : is_ptr H t = true \/ (forall k, h_impl H (TPtr t) k = true -> h_impl H t k = true) -> method_of H t a = method_of H t a'.
  Proof.
    intros P. unfold method_of. assert (G : forall ks, pick H t a ks = pick H t a' ks); [|apply G].
    induction ks as [|k ks IH]; [reflexivity|]. cbn [pick]. destruct (h_impl H t k) eqn:I1; [reflexivity|]. destruct P as [P|P].
    - rewrite P. exact IH.
    - destruct (h_impl H (TPtr t) k) eqn:I2; [apply P in I2; congruence|]. rewrite !andb_false_r. exact IH.
  Qed.

  Lemma venc_addr n t a a' q v : address_free t -> venc H vcall o n t a q v = venc H vcall o n t a' q v.
  Proof.
    intros A. destruct n as [|n]; [reflexivity|]. cbn [venc]. destruct (native t) eqn:Hn; [reflexivity|].
    destruct A as [A|[A|(A & B & D)]]; [|congruence|].
    - rewrite (method_of_addr t a a' (or_introl A)). destruct (method_of H t a') as [[k hp]|]; [reflexivity|].
      unfold vkind. unfold is_ptr in A. destruct (under E t); try discriminate A. reflexivity.
    - rewrite (method_of_addr t a a' (or_intror A)). destruct (method_of H t a') as [[k hp]|]; [reflexivity|].
      unfold vkind. destruct (under E t) eqn:U; try reflexivity; exfalso; [eapply B | eapply D]; reflexivity.
  Qed.

  Lemma piece_node ca t v r : piece ca t v r -> node_result (t, ca, false, v) r.
  Proof.
    intros [A P|Ca Hm P|td x Pl U -> P|ms Pl U -> ->].
    - apply alone_node in P. destruct P as (n & out & err & Hn & ->). exists n, out, err. split; [|reflexivity]. rewrite <- Hn.
      destruct A as [->|A]; [|apply venc_addr, A]. destruct (is_ptr H t) eqn:Ip; [|reflexivity]. apply venc_addr. left. exact Ip.
    - subst ca. apply alone_node in P. destruct P as (n & out & err & Hn & ->). destruct n as [|n]; [discriminate|]. cbn [venc native] in Hn.
      rewrite (proj2 (method_none H (TPtr t) (is_ptr H (TPtr t)))) in Hn.
      + unfold vkind in Hn. cbn [under] in Hn. exists n, out, err. auto.
      + intros k [A|(A & _)]; [rewrite Hm in A; discriminate | discriminate A].
    - destruct P as (m & w & C & R). destruct (call_returns H vcall OK m td w x opts o C) as (out & err & A & B). apply B in R. subst r.
      destruct A as [n Hn]. exists (S n), out, err. split; [|reflexivity]. cbn [venc]. destruct Pl as [P1 P2]. rewrite P1, P2. unfold vkind. rewrite U. exact Hn.
    - exists 1%nat, l_null, None. split; [|reflexivity]. cbn [venc]. destruct Pl as [P1 P2]. rewrite P1, P2. unfold vkind. rewrite U. reflexivity.
  Qed.

  (** ** Slices, arrays and pointers *)
  Fixpoint commas (bs : list bytes) : bytes := match bs with [] => [] | [b] => b | b :: bs' => b ++ lit "," ++ commas bs' end.
  Definition array_text (bs : list bytes) (out : bytes) : Prop := out = lit "[" ++ commas bs ++ lit "]".

  Lemma join_commas bs : join_elems true bs = lit "[" ++ commas bs ++ lit "]".
  Proof.
    assert (G : forall bs b, join_elems false (b :: bs) = lit "," ++ commas (b :: bs) ++ lit "]").
    { induction bs0 as [|c bs0 IH]; intros b; [reflexivity|]. change (join_elems false (b :: c :: bs0)) with (44 :: b ++ join_elems false (c :: bs0)). rewrite IH.
      change (commas (b :: c :: bs0)) with (b ++ lit "," ++ commas (c :: bs0)). rewrite <- !app_assoc. reflexivity. }
    destruct bs as [|b [|c bs]]; [reflexivity | reflexivity|]. change (join_elems true (b :: c :: bs)) with (91 :: b ++ join_elems false (c :: bs)). rewrite G.
    change (commas (b :: c :: bs)) with (b ++ lit "," ++ commas (c :: bs)). rewrite <- !app_assoc. reflexivity.
  Qed.

  Lemma velems_joined n e ca : forall vs rs first out0 out err, Forall2 (fun v r => node_result (e, ca, false, v) r) vs rs ->
    velems (venc H vcall o n) e ca vs first out0 = VRet out err ->
    (exists bs, rs = map MOk bs /\ err = None /\ out = out0 ++ join_elems first bs) \/ (exists bs x rest, rs = map MOk bs ++ MErr x :: rest /\ err = Some x).
  Proof.
    induction vs as [|v vs IH]; intros rs first out0 out err F Hr; inversion F as [|? r ? rs' Fv Fr]; subst; cbn [velems] in Hr.
    - left. exists []. split; [reflexivity|]. destruct first; injection Hr as <- <-; auto.
    - assert (A := node_agrees e ca false v r n Fv). unfold vthen in Hr. destruct (venc H vcall o n e ca false v) as [b [x|]| |]; try discriminate Hr; cbn [agrees outcome] in A; subst r.
      + injection Hr as <- <-. right. exists [], x, rs'. auto.
      + destruct (IH _ _ _ _ _ Fr Hr) as [(bs & -> & -> & ->)|(bs & x & rest & -> & ->)].
        * left. exists (b :: bs). split; [reflexivity|]. split; [reflexivity|]. cbn [join_elems]. rewrite <- !app_assoc. reflexivity.
        * right. exists (b :: bs), x, rest. auto.
  Qed.

  Lemma elems_joined m t w v e ca vs rs : call H m t w v opts o ->
    (forall n, venc H vcall o (S n) t (is_ptr H t) false v = velems (venc H vcall o n) e ca vs true []) ->
    Forall2 (piece ca e) vs rs -> exists r, joined array_text rs r /\ forall r', marshal_returns H m (Some (t, w)) opts r' <-> r' = r.
  Proof.
    intros C Ev F. destruct (call_returns H vcall OK m t w v opts o C) as (out & err & A & B). exists (outcome out err). split; [|exact B].
    apply encodes_inv in A. destruct A as [n Hn]. destruct n as [|n]; [discriminate|]. rewrite Ev in Hn.
    assert (F' : Forall2 (fun v r => node_result (e, ca, false, v) r) vs rs) by (clear - F OK; induction F; constructor; [apply piece_node; assumption | assumption]).
    destruct (velems_joined _ _ _ _ _ _ _ _ _ F' Hn) as [(bs & -> & -> & ->)|(bs & x & rest & -> & ->)].
    - apply j_ok. unfold array_text. cbn [app]. apply join_commas.
    - apply j_error.
  Qed.

  (** The elements of an array are not addressable, those of a slice are. *)
  Theorem C60_array m t w n e vs rs : call H m t w (VArr vs) opts o -> DocSpec.plain H t false -> under E t = TArray n e ->
    byte_elem H e && has (o_flags o) byteArrayAsString = false -> Forall2 (piece false e) vs rs ->
    exists r, joined array_text rs r /\ forall r', marshal_returns H m (Some (t, w)) opts r' <-> r' = r.
  Proof.
    intros C [P1 P2] U B F. assert (Ip : is_ptr H t = false) by (unfold is_ptr; rewrite U; reflexivity).
    eapply elems_joined; [exact C| |exact F]. intros k. cbn [venc]. rewrite P1, Ip, P2. unfold vkind. rewrite U, B. reflexivity.
  Qed.

  Theorem C60_slice m t w e vs rs : call H m t w (VSlice vs) opts o -> DocSpec.plain H t false -> under E t = TSlice e ->
    byte_elem H e = false -> Forall2 (piece true e) vs rs ->
    exists r, joined array_text rs r /\ forall r', marshal_returns H m (Some (t, w)) opts r' <-> r' = r.
  Proof.
    intros C [P1 P2] U B F. assert (Ip : is_ptr H t = false) by (unfold is_ptr; rewrite U; reflexivity).
    eapply elems_joined; [exact C| |exact F]. intros k. cbn [venc]. rewrite P1, Ip, P2. unfold vkind. rewrite U, B. reflexivity.
  Qed.

  Theorem C60_pointer m t w e v r : call H m t w (VPtr v) opts o -> DocSpec.plain H t false -> under E t = TPtr e -> piece true e v r ->
    forall r', marshal_returns H m (Some (t, w)) opts r' <-> r' = r.
  Proof.
    intros C [P1 P2] U F. assert (Ip : is_ptr H t = true) by (unfold is_ptr; rewrite U; reflexivity).
    destruct (call_returns H vcall OK m t w _ opts o C) as (out & err & A & B). apply encodes_inv in A. destruct A as [n Hn]. destruct n as [|n]; [discriminate|].
    cbn [venc] in Hn. rewrite P1, (method_of_addr t (is_ptr H t) false (or_introl Ip)), P2 in Hn. unfold vkind in Hn. rewrite U in Hn.
    assert (G := node_agrees e true false v r n (piece_node _ _ _ _ F)). rewrite Hn in G. cbn [agrees] in G. subst r. exact B.
  Qed.

  (** ** Maps with string keys
      The values are not addressable.  The first error is that of the first
      entry, in the order of iteration. *)
  Definition of_entry (e : vres * vres) (kb : bytes) (r : mres) : Prop := fst e = VRet kb None /\ agrees r (snd e).
  Inductive entries_agree : list (vres * vres) -> list bytes -> list mres -> Prop :=
  | ea_nil : entries_agree [] [] []
  | ea_cons e es kb kbs r rs : of_entry e kb r -> entries_agree es kbs rs -> entries_agree (e :: es) (kb :: kbs) (r :: rs).

  Lemma gives_combine es kbs rs : entries_agree es kbs rs -> forall kvs, Forall2 gives es kvs -> exists bs, rs = map MOk bs /\ kvs = combine kbs bs.
  Proof.
    induction 1 as [|[k v] es kb kbs r rs (A1 & A3) _ IH]; intros kvs F; inversion F as [|? [kb' vb] ? kvs' G F']; subst.
    - exists []. split; reflexivity.
    - destruct (IH _ F') as (bs & -> & ->). destruct G as [G1 G2]. cbn [fst snd] in *. rewrite G1 in A1. injection A1 as ->. rewrite G2 in A3. cbn [agrees outcome] in A3. subst r.
      exists (vb :: bs). split; reflexivity.
  Qed.
  Lemma vunsorted_error es kbs rs : entries_agree es kbs rs -> forall first out0 out x, vunsorted es first out0 = VRet out (Some x) -> exists bs rest, rs = map MOk bs ++ MErr x :: rest.
  Proof.
    induction 1 as [|[k v] es kb kbs r rs (A1 & A3) _ IH]; intros first out0 out x Hr; cbn [vunsorted] in Hr; [discriminate|].
    cbn [fst snd] in *. rewrite A1 in Hr. unfold vthen in Hr. destruct v as [b [y|]| |]; try discriminate Hr; cbn [agrees outcome] in A3; subst r.
    - injection Hr as _ ->. exists [], rs. reflexivity.
    - destruct (IH _ _ _ _ Hr) as (bs & rest & ->). exists (b :: bs), rest. reflexivity.
  Qed.
  Lemma vfill_error es kbs rs : entries_agree es kbs rs -> forall acc x, vfill es acc = VFErr x -> exists bs rest, rs = map MOk bs ++ MErr x :: rest.
  Proof.
    induction 1 as [|[k v] es kb kbs r rs (A1 & A3) _ IH]; intros acc x Hr; cbn [vfill] in Hr; [discriminate|].
    cbn [fst snd] in *. rewrite A1 in Hr. destruct (length kb <? 2)%nat; [discriminate|]. destruct v as [b [y|]| |]; try discriminate Hr; cbn [agrees outcome] in A3; subst r.
    - injection Hr as ->. exists [], rs. reflexivity.
    - destruct (IH _ _ Hr) as (bs & rest & ->). exists (b :: bs), rest. reflexivity.
  Qed.

  (** The members: the texts of the keys, as strings, and of the values; sorted
      by the keys, or in the order of iteration. *)
  Definition object_of (kbs bs : list bytes) (out : bytes) : Prop :=
    exists kvs, Permutation (combine kbs bs) kvs /\ out = lit "{" ++ commas (map (fun kv => fst kv ++ lit ":" ++ snd kv) kvs) ++ lit "}" /\
      if has (o_flags o) unsortedMap then kvs = combine kbs bs else StronglySorted (fun a b => key_le (sort_key (fst a)) (sort_key (fst b))) kvs.

  Lemma members_commas kvs : join_members kvs = commas (map (fun kv => fst kv ++ lit ":" ++ snd kv) kvs).
  Proof.
    induction kvs as [|kv kvs IH]; [reflexivity|]. destruct kvs as [|kv' kvs]; [reflexivity|].
    change (map (fun kv => fst kv ++ lit ":" ++ snd kv) (kv :: kv' :: kvs)) with ((fst kv ++ lit ":" ++ snd kv) :: map (fun kv => fst kv ++ lit ":" ++ snd kv) (kv' :: kvs)).
    change (join_members (kv :: kv' :: kvs)) with (member_text kv ++ 44 :: join_members (kv' :: kvs)). rewrite IH. reflexivity.
  Qed.

  Lemma alone_string s kb : (forall k, h_impl H TString k = false) -> alone TString (VStr s) (MOk kb) -> encode_string [] s o = kb.
  Proof.
    intros N A. apply alone_node in A. assert (G := node_agrees _ _ _ _ _ 1 A). cbn [venc native] in G.
    rewrite (proj2 (method_none H TString (is_ptr H TString))) in G.
    - unfold vkind in G. cbn [under agrees outcome] in G. injection G as ->. reflexivity.
    - intros k [X|(_ & X & _)]; [rewrite N in X; discriminate | discriminate X].
  Qed.

  Theorem C60_map m t w kt et es ss vs kbs rs : sort_ok H -> (forall k, h_impl H TString k = false) -> call H m t w (VMap es) opts o -> DocSpec.plain H t false -> under E t = TMap kt et ->
    isString E kt = true -> es = combine (map VStr ss) vs -> length ss = length vs -> Forall2 (fun s kb => alone TString (VStr s) (MOk kb)) ss kbs -> Forall2 (piece false et) vs rs ->
    exists r, joined (object_of kbs) rs r /\ forall r', marshal_returns H m (Some (t, w)) opts r' <-> r' = r.
  Proof.
    intros SO NS C [P1 P2] U K -> L Fk Fv. assert (Ip : is_ptr H t = false) by (unfold is_ptr; rewrite U; reflexivity).
    destruct (call_returns H vcall OK m t w _ opts o C) as (out & err & A & B). exists (outcome out err). split; [|exact B].
    apply encodes_inv in A. destruct A as [n Hn]. destruct n as [|n]; [discriminate|].
    cbn [venc] in Hn. rewrite P1, Ip, P2 in Hn. unfold vkind in Hn. rewrite U in Hn.
    assert (Ko : key_ok H kt = true) by (unfold key_ok; rewrite K; reflexivity). rewrite Ko in Hn. cbn [negb] in Hn.
    assert (Ea : entries_agree (map (fun kv => (vkey H o (venc H vcall o n) kt (fst kv), venc H vcall o n et false false (snd kv))) (combine (map VStr ss) vs)) kbs rs).
    { clear - NS K L Fk Fv OK. revert vs rs L Fv. induction Fk as [|s kb ss kbs Hs _ IH]; intros vs rs L Fv; destruct vs as [|v vs]; try discriminate L; inversion Fv; subst; [constructor|].
      cbn [map combine]. constructor; [|apply IH; [cbn in L; lia | assumption]].
      split; cbn [fst snd].
      - unfold vkey. rewrite K, (alone_string _ _ NS Hs). reflexivity.
      - apply node_agrees, piece_node. assumption. }
    assert (Hv : exists es', es' = map (fun kv => (vkey H o (venc H vcall o n) kt (fst kv), venc H vcall o n et false false (snd kv))) (combine (map VStr ss) vs)) by eauto.
    destruct Hv as [es' Ev]. rewrite <- Ev in *.
    assert (Hv : ventries H o es' = VRet out err).
    { destruct (combine (map VStr ss) vs) as [|e0 es0] eqn:Ec; [|exact Hn]. subst es'. injection Hn as <- <-. unfold ventries, vsorted. cbn [vunsorted vfill map].
      destruct (has (o_flags o) unsortedMap); cbn [vthen]; [reflexivity|]. replace (h_sort H []) with (@nil (bytes * bytes)); [reflexivity|]. symmetry. apply Permutation_nil. apply SO. }
    clear Hn. destruct err as [x|]; cbn [outcome].
    - unfold ventries in Hv. destruct (has (o_flags o) unsortedMap).
      + destruct (vunsorted es' true [123]) as [b [y|]| |] eqn:Eu; try discriminate Hv. injection Hv as _ ->.
        destruct (vunsorted_error _ _ _ Ea _ _ _ _ Eu) as (bs & rest & ->). apply j_error.
      + unfold vsorted in Hv. destruct (vfill es' []) as [kvs|y| |] eqn:Ef; try discriminate Hv. injection Hv as _ ->.
        destruct (vfill_error _ _ _ Ea _ _ Ef) as (bs & rest & ->). apply j_error.
    - destruct (ventries_text H o SO _ _ Hv) as (kvs & G & kvs' & T1 & T2 & T3). destruct (gives_combine _ _ _ Ea _ G) as (bs & -> & ->).
      apply j_ok. exists kvs'. split; [exact T1|]. split; [|exact T3]. rewrite <- members_commas. exact T2.
  Qed.

  (** ** Structs
      A field with the string option that is a boolean or a number is quoted. *)
  Inductive field_piece (ca : bool) (f : field) (ft : typ) (x : val) : mres -> Prop :=
  | fp_plain r : quoted H f ft = false -> piece ca ft x r -> field_piece ca f ft x r
  | fp_quoted b : quoted H f ft = true -> DocSpec.plain H ft ca -> (exists k, under E ft = TInt k) \/ (exists b, under E ft = TFloat b) \/ under E ft = TBool ->
      piece ca ft x (MOk b) -> field_piece ca f ft x (MOk (lit """" ++ b ++ lit """"))
  | fp_quoted_error e : quoted H f ft = true -> DocSpec.plain H ft ca -> (exists k, under E ft = TInt k) \/ (exists b, under E ft = TFloat b) \/ under E ft = TBool ->
      piece ca ft x (MErr e) -> field_piece ca f ft x (MErr e).

  Lemma field_piece_node ca f ft x r : field_piece ca f ft x r -> node_result (ft, ca, quoted H f ft, x) r.
  Proof.
    assert (Q : forall r, DocSpec.plain H ft ca -> (exists k, under E ft = TInt k) \/ (exists b, under E ft = TFloat b) \/ under E ft = TBool -> piece ca ft x r ->
      exists n b err, r = outcome b err /\ venc H vcall o n ft ca true x = vquote (VRet b err)).
    { intros r' [P1 P2] K P. apply piece_node in P. destruct P as (n & b & err & Hn & ->). destruct n as [|n]; [discriminate|]. exists (S n), b, err. split; [reflexivity|].
      cbn [venc] in *. rewrite P1, P2 in *. unfold vkind in *. destruct K as [[k U]|[[k U]|U]]; rewrite U in *; destruct x; try discriminate Hn; cbn [vquote_if] in *; rewrite Hn; reflexivity. }
    intros [r' Hq P|b Hq Pl K P|e Hq Pl K P]; rewrite Hq.
    - apply piece_node, P.
    - destruct (Q _ Pl K P) as (n & b' & [e|] & R & Hn); [discriminate|]. injection R as <-. exists n, (34 :: b ++ [34]), None. split; [exact Hn | reflexivity].
    - destruct (Q _ Pl K P) as (n & b' & [e'|] & R & Hn); [|discriminate]. injection R as <-. cbn [vquote] in Hn. exists n. do 2 eexists. split; [exact Hn | reflexivity].
  Qed.

  (** The members: those of the fields shown, in order.  [None]: a null that
      omitnil takes back.  The first error ends it. *)
  Inductive assembled (t : typ) (ca : bool) (v : val) : list field -> list (field * option bytes) -> option gerr -> Prop :=
  | as_nil : assembled t ca v [] [] None
  | as_hidden f fs l err : hidden H o t v f -> assembled t ca v fs l err -> assembled t ca v (f :: fs) l err
  | as_null f ft x b fs l err : shown H o t v f ft x -> field_piece ca f ft x (MOk b) -> drops_null H f ft -> ends_null b -> assembled t ca v fs l err ->
      assembled t ca v (f :: fs) ((f, None) :: l) err
  | as_show f ft x b fs l err : shown H o t v f ft x -> field_piece ca f ft x (MOk b) -> ~ (drops_null H f ft /\ ends_null b) -> assembled t ca v fs l err ->
      assembled t ca v (f :: fs) ((f, Some b) :: l) err
  | as_error f ft x e fs : shown H o t v f ft x -> field_piece ca f ft x (MErr e) -> assembled t ca v (f :: fs) [] (Some e).

  Lemma vfields_assembled n t ca v fs l err' : assembled t ca v fs l err' -> forall first out0 out err, vfields H o (venc H vcall o n) t ca v fs first out0 = VRet out err ->
    err = err' /\ (err = None -> out = out0 ++ (if first then object_text o l else concat (map (tail_text o) l) ++ [125])).
  Proof.
    assert (Sh : forall f ft x fs first out0, shown H o t v f ft x -> vfields H o (venc H vcall o n) t ca v (f :: fs) first out0 =
      if negb (right_seq H t f) then VOut else
      match venc H vcall o n ft ca (quoted H f ft) x with
      | VRet b None => vfields H o (venc H vcall o n) t ca v fs false
          (if f_omitNil f && (h_impl H ft MJson || h_impl H (TPtr ft) MJson) && tail_null b then (if first then out0 ++ (if first then [123] else [44]) else out0)
           else out0 ++ (if first then [123] else [44]) ++ key_text o (f_name f) ++ b)
      | VRet b (Some e) => VRet (out0 ++ (if first then [123] else [44]) ++ key_text o (f_name f) ++ b) (Some e)
      | r => r
      end).
    { intros f ft x fs0 first out0 (S1 & [S2 S3] & S4). cbn [vfields]. rewrite <- isDeniedField_spec in S1. apply not_true_is_false in S1. rewrite S1.
      destruct (negb (right_seq H t f)); [reflexivity|]. rewrite S2, S3. rewrite <- dropped_spec in S4. apply not_true_is_false, orb_false_iff in S4. destruct S4 as [S4 S5]. rewrite S4, S5. reflexivity. }
    assert (Hd : forall f ft b, f_omitNil f && (h_impl H ft MJson || h_impl H (TPtr ft) MJson) && tail_null b = true <-> drops_null H f ft /\ ends_null b).
    { intros. rewrite !andb_true_iff, orb_true_iff, tail_null_spec. reflexivity. }
    induction 1 as [|f fs l err' Hh _ IH|f ft x b fs l err' Hs Hp D1 D2 _ IH|f ft x b fs l err' Hs Hp D _ IH|f ft x e fs Hs Hp]; intros first out0 out err Hr.
    - cbn [vfields] in Hr. destruct first; injection Hr as <- <-; split; reflexivity.
    - apply (IH first out0). rewrite <- Hr. symmetry. cbn [vfields]. destruct Hh as [Hh|[Hh|(ft & x & [S2 S3] & S4)]].
      + apply isDeniedField_spec in Hh. rewrite Hh. reflexivity.
      + cbn [vfields] in Hr. destruct (isDeniedField o (f_name f)); [reflexivity|]. destruct (negb (right_seq H t f)); [discriminate|]. rewrite Hh. reflexivity.
      + cbn [vfields] in Hr. destruct (isDeniedField o (f_name f)); [reflexivity|]. destruct (negb (right_seq H t f)); [discriminate|]. rewrite S2, S3.
        apply dropped_spec, orb_true_iff in S4. destruct S4 as [S4|S4]; rewrite S4; [reflexivity|]. destruct (f_omitNil f && vnil x); reflexivity.
    - rewrite (Sh _ _ _ _ _ _ Hs) in Hr. destruct (negb (right_seq H t f)); [discriminate|].
      assert (A := node_agrees _ _ _ _ _ n (field_piece_node _ _ _ _ _ Hp)). destruct (venc H vcall o n ft ca (quoted H f ft) x) as [b' [e|]| |]; try discriminate Hr; try discriminate A. injection A as <-.
      rewrite (proj2 (Hd f ft b) (conj D1 D2)) in Hr. destruct (IH _ _ _ _ Hr) as [-> B]. split; [reflexivity|]. intros N. rewrite (B N).
      destruct first; cbn [object_text map concat tail_text app]; rewrite <- ?app_assoc; reflexivity.
    - rewrite (Sh _ _ _ _ _ _ Hs) in Hr. destruct (negb (right_seq H t f)); [discriminate|].
      assert (A := node_agrees _ _ _ _ _ n (field_piece_node _ _ _ _ _ Hp)). destruct (venc H vcall o n ft ca (quoted H f ft) x) as [b' [e|]| |]; try discriminate Hr; try discriminate A. injection A as <-.
      destruct (f_omitNil f && (h_impl H ft MJson || h_impl H (TPtr ft) MJson) && tail_null b) eqn:Eb; [exfalso; apply D, Hd, Eb|].
      destruct (IH _ _ _ _ Hr) as [-> B]. split; [reflexivity|]. intros N. rewrite (B N).
      destruct first; cbn [object_text map concat tail_text app]; rewrite <- ?app_assoc; cbn [app]; rewrite <- ?app_assoc; reflexivity.
    - rewrite (Sh _ _ _ _ _ _ Hs) in Hr. destruct (negb (right_seq H t f)); [discriminate|].
      assert (A := node_agrees _ _ _ _ _ n (field_piece_node _ _ _ _ _ Hp)). destruct (venc H vcall o n ft ca (quoted H f ft) x) as [b' [e'|]| |]; try discriminate Hr; try discriminate A. injection A as <-.
      injection Hr as <- <-. split; [reflexivity | discriminate].
  Qed.

  (** [object_text]: braces, and a comma before each member but the first. *)
  Definition struct_result (l : list (field * option bytes)) (err : option gerr) : mres := match err with None => MOk (object_text o l) | Some e => MErr e end.

  Lemma struct_node t ca vs fs0 k fs l err r : typ_ok (h_letter H) (h_udigit H) t -> DocSpec.plain H t ca -> under E t = TStruct fs0 -> structFields H k t = Some fs ->
    assembled t ca (VStruct vs) fs l err -> node_result (t, ca, false, VStruct vs) r -> r = struct_result l err.
  Proof.
    intros Ht [P1 P2] U S A (n & out & err0 & Hn & ->). destruct n as [|n]; [discriminate|]. cbn [venc] in Hn. rewrite P1, P2 in Hn. unfold vkind in Hn. rewrite U in Hn.
    unfold vstruct in Hn. destruct (fields_of H t) as [|fd fds] eqn:Ef.
    - injection Hn as <- <-. assert (fs = []) by (eapply DocProof.no_fields; eauto). subst fs. inversion A; subst. reflexivity.
    - destruct (structFields H n t) as [fs'|] eqn:S'; [|discriminate]. assert (fs' = fs) by (eapply structFields_det; eauto). subst fs'.
      destruct (vfields_assembled n t ca (VStruct vs) fs l err A _ _ _ _ Hn) as [-> B]. destruct err; [reflexivity|]. cbn [outcome struct_result]. rewrite (B eq_refl). reflexivity.
  Qed.

  (** A struct, and a pointer to a struct: the fields are addressable. *)
  Theorem C60_struct m t w vs fs0 k fs l err : call H m t w (VStruct vs) opts o -> DocSpec.plain H t false -> under E t = TStruct fs0 -> structFields H k t = Some fs ->
    assembled t false (VStruct vs) fs l err -> forall r, marshal_returns H m (Some (t, w)) opts r <-> r = struct_result l err.
  Proof.
    intros C P U S A. assert (Ip : is_ptr H t = false) by (unfold is_ptr; rewrite U; reflexivity).
    destruct (call_returns H vcall OK m t w _ opts o C) as (out & err0 & En & B). intros r. rewrite (B r). enough (outcome out err0 = struct_result l err) as -> by reflexivity.
    eapply struct_node; eauto; [apply (call_part_tok H vcall OK m t w _ opts o C _ (part_refl _ _ _))|]. apply encodes_inv in En. destruct En as [n Hn]. rewrite Ip in Hn. exists n, out, err0. auto.
  Qed.
  Theorem C60_struct_pointer m p w t vs fs0 k fs l err : call H m p w (VPtr (VStruct vs)) opts o -> DocSpec.plain H p false -> under E p = TPtr t -> DocSpec.plain H t true -> under E t = TStruct fs0 ->
    structFields H k t = Some fs -> assembled t true (VStruct vs) fs l err -> forall r, marshal_returns H m (Some (p, w)) opts r <-> r = struct_result l err.
  Proof.
    intros C [P1 P2] Up P U S A. assert (Ip : is_ptr H p = true) by (unfold is_ptr; rewrite Up; reflexivity).
    destruct (call_returns H vcall OK m p w _ opts o C) as (out & err0 & En & B). intros r. rewrite (B r). enough (outcome out err0 = struct_result l err) as -> by reflexivity.
    assert (Pp : DocSpec.plain H p (is_ptr H p)) by (split; [exact P1 | rewrite (method_of_addr p (is_ptr H p) false (or_introl Ip)); exact P2]).
    assert (Ht := call_part_tok H vcall OK m p w _ opts o C _ (part_step _ _ _ _ _ (ch_ptr H o p (is_ptr H p) false t (VStruct vs) Pp Up) (part_refl _ _ _))). cbn zeta beta iota in Ht.
    eapply struct_node; eauto. apply encodes_inv in En. destruct En as [n Hn]. destruct n as [|n]; [discriminate|].
    cbn [venc] in Hn. rewrite P1, (method_of_addr p (is_ptr H p) false (or_introl Ip)), P2 in Hn. unfold vkind in Hn. rewrite Up in Hn. exists n, out, err0. auto.
  Qed.
End Compose.

(** []interface{}{P(1), 7} and []interface{}{P(1), F(1), true}: the second
    element of the latter fails. *)
Ltac mt_alone t v := exists (mt_m t v), (mt_w t v); split; [mt_call | mt_run].
Definition ct : typ := TSlice (TIface None).
Definition cv : val := VSlice [VIface (TNamed 4) (VInt 1); VIface (TInt KInt) (VInt 7)].
Example C60_ex_slice : alone mtH [] default_opts (TNamed 4) (VInt 1) (MOk (lit "0")) /\ alone mtH [] default_opts (TInt KInt) (VInt 7) (MOk (lit "7")) /\
  marshal_returns mtH (mt_m ct cv) (Some (ct, mt_w ct cv)) [] (MOk (lit "[0,7]")).
Proof.
  assert (A : alone mtH [] default_opts (TNamed 4) (VInt 1) (MOk (lit "0"))) by mt_alone (TNamed 4%nat) (VInt 1).
  assert (B : alone mtH [] default_opts (TInt KInt) (VInt 7) (MOk (lit "7"))) by mt_alone (TInt KInt) (VInt 7).
  split; [exact A|]. split; [exact B|].
  destruct (C60_slice mtH mtV mt_ok [] default_opts (mt_m ct cv) ct (mt_w ct cv) (TIface None) [VIface (TNamed 4) (VInt 1); VIface (TInt KInt) (VInt 7)] [MOk (lit "0"); MOk (lit "7")]) as (r & J & R).
  - mt_call.
  - split; reflexivity.
  - reflexivity.
  - reflexivity.
  - constructor; [eapply pc_held; [split; reflexivity | reflexivity | reflexivity | exact A]|]. constructor; [eapply pc_held; [split; reflexivity | reflexivity | reflexivity | exact B] | constructor].
  - apply R. inversion J as [bs out F E1 E2|bs e rest E1 E2]; subst.
    + destruct bs as [|b1 [|b2 [|b3 bs]]]; try discriminate E1. injection E1 as -> ->. unfold array_text in F. subst out. reflexivity.
    + destruct bs as [|b1 [|b2 [|b3 bs]]]; discriminate E1.
Qed.
Definition ce_v : val := VSlice [VIface (TNamed 4) (VInt 1); VIface (TNamed 6) (VInt 1); VIface TBool (VBool true)].
Example C60_ex_error : exists e, alone mtH [] default_opts (TNamed 6) (VInt 1) (MErr e) /\ marshal_returns mtH (mt_m ct ce_v) (Some (ct, mt_w ct ce_v)) [] (MErr e).
Proof.
  assert (A : alone mtH [] default_opts (TNamed 4) (VInt 1) (MOk (lit "0"))) by mt_alone (TNamed 4%nat) (VInt 1).
  assert (B : alone mtH [] default_opts TBool (VBool true) (MOk (lit "true"))) by mt_alone TBool (VBool true).
  assert (D : exists e, alone mtH [] default_opts (TNamed 6) (VInt 1) (MErr e)) by (eexists; mt_alone (TNamed 6%nat) (VInt 1)).
  destruct D as [e D]. exists e. split; [exact D|].
  destruct (C60_slice mtH mtV mt_ok [] default_opts (mt_m ct ce_v) ct (mt_w ct ce_v) (TIface None) [VIface (TNamed 4) (VInt 1); VIface (TNamed 6) (VInt 1); VIface TBool (VBool true)] [MOk (lit "0"); MErr e; MOk (lit "true")]) as (r & J & R).
  - mt_call.
  - split; reflexivity.
  - reflexivity.
  - reflexivity.
  - constructor; [eapply pc_held; [split; reflexivity | reflexivity | reflexivity | exact A]|]. constructor; [eapply pc_held; [split; reflexivity | reflexivity | reflexivity | exact D]|].
    constructor; [eapply pc_held; [split; reflexivity | reflexivity | reflexivity | exact B] | constructor].
  - apply R. inversion J as [bs out F E1 E2|bs e' rest E1 E2]; subst.
    + destruct bs as [|b1 [|b2 [|b3 bs]]]; discriminate E1.
    + destruct bs as [|b1 [|b2 [|b3 [|b4 bs]]]]; try discriminate E1. injection E1 as _ <- _. reflexivity.
Qed.
(** Inner{1}: without address, the field is a plain integer; so is its text. *)
Definition in_v : val := VStruct [VInt 1].
Definition in_fs : list field := match structFields mtH 5 (TNamed 1) with Some fs => fs | None => [] end.
Definition in_f : field := hd (mkField [] false false false false [] []) in_fs.
Example C60_ex_struct : alone mtH [] default_opts (TNamed 0) (VInt 1) (MOk (lit "1")) /\
  marshal_returns mtH (mt_m (TNamed 1) in_v) (Some (TNamed 1, mt_w (TNamed 1) in_v)) [] (MOk (lit "{""X"":1}")).
Proof.
  assert (A : alone mtH [] default_opts (TNamed 0) (VInt 1) (MOk (lit "1"))) by mt_alone (TNamed 0%nat) (VInt 1).
  split; [exact A|].
  apply (C60_struct mtH mtV mt_ok [] default_opts _ (TNamed 1) _ [VInt 1] [fld "X" "" (TNamed 0)] 5%nat in_fs [(in_f, Some (lit "1"))] None).
  - mt_call.
  - split; reflexivity.
  - reflexivity.
  - vm_compute. reflexivity.
  - change in_fs with [in_f]. eapply as_show with (ft := TNamed 0) (x := VInt 1).
    + split; [|split].
      * intros [(d & [=] & _)|(d & [=] & _)].
      * split; vm_compute; reflexivity.
      * intros [[X _]|[X _]]; vm_compute in X; discriminate.
    + apply fp_plain; [vm_compute; reflexivity|]. apply pc_value; [left; reflexivity | exact A].
    + intros [[X _] _]. vm_compute in X. discriminate.
    + constructor.
  - vm_compute. reflexivity.
Qed.
(** map[string]P{"b": P(1), "a": P(2)}: sorted. *)
Definition cm_t : typ := TMap TString (TNamed 4).
Definition cm_v : val := VMap [(VStr (lit "b"), VInt 1); (VStr (lit "a"), VInt 2)].
Example C60_ex_map : marshal_returns mtH (mt_m cm_t cm_v) (Some (cm_t, mt_w cm_t cm_v)) [] (MOk (lit "{""a"":0,""b"":0}")) /\
  exists r, joined (object_of default_opts [lit """b"""; lit """a"""]) [MOk (lit "0"); MOk (lit "0")] r /\ forall r', marshal_returns mtH (mt_m cm_t cm_v) (Some (cm_t, mt_w cm_t cm_v)) [] r' <-> r' = r.
Proof.
  split; [mt_run|].
  apply (C60_map mtH mtV mt_ok [] default_opts (mt_m cm_t cm_v) cm_t (mt_w cm_t cm_v) TString (TNamed 4) [(VStr (lit "b"), VInt 1); (VStr (lit "a"), VInt 2)] [lit "b"; lit "a"] [VInt 1; VInt 2]).
  - exact mt_sort.
  - intros []; reflexivity.
  - mt_call.
  - split; reflexivity.
  - reflexivity.
  - reflexivity.
  - reflexivity.
  - reflexivity.
  - constructor; [mt_alone TString (VStr (lit "b"))|]. constructor; [mt_alone TString (VStr (lit "a")) | constructor].
  - constructor; [apply pc_value; [left; reflexivity|]; mt_alone (TNamed 4%nat) (VInt 1)|]. constructor; [apply pc_value; [left; reflexivity|]; mt_alone (TNamed 4%nat) (VInt 2) | constructor].
Qed.

Print Assumptions C60_slice.
Print Assumptions C60_array.
Print Assumptions C60_pointer.
Print Assumptions C60_map.
Print Assumptions C60_struct.
Print Assumptions C60_struct_pointer.
