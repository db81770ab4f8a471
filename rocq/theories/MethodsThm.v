(** Which method encodes a part, stated on the method sets alone. *)
From Verif Require Import Base Utf8 JsonSpec OptionsModel EscapeModel EscapeProof JsonParse CompactModel CompactProof IntModel TypesModel TypesFacts TimeModel FloatModel LeafModel MemModel FieldsModel
  InstrModel ExecModel ValueModel ExecProof HostFacts VencFacts MarshalThm DocSpec PartFacts DocProof SafeProof ApiFacts PartsThm ShapeThm CallFacts.

Definition rank (k : mkind) : Z := match k with MCtx => 0 | MApp => 1 | MJson => 2 | MText => 3 end.

(** Method k can be called on a value of type t: it is in the method set of t,
    or in that of *t and the value is addressable. *)
Definition available (H : host) (t : typ) (addr : bool) (k : mkind) : Prop :=
  h_impl H t k = true \/ (is_ptr H t = false /\ addr = true /\ h_impl H (TPtr t) k = true).
Definition first_method (H : host) (t : typ) (addr : bool) (k : mkind) : Prop :=
  available H t addr k /\ forall k', rank k' < rank k -> ~ available H t addr k'.
Definition no_method (H : host) (t : typ) (addr : bool) : Prop := forall k, ~ available H t addr k.

(** Called through the address of the value. *)
Definition by_address (H : host) (t : typ) (k : mkind) : bool := negb (h_impl H t k).

Lemma pick_spec H t ca : forall ks, match pick H t ca ks with
  | Some (k, hp) => In k ks /\ available H t ca k /\ hp = by_address H t k /\ exists pre post, ks = pre ++ k :: post /\ forall k', In k' pre -> ~ available H t ca k'
  | None => forall k, In k ks -> ~ available H t ca k
  end.
Proof.
  induction ks as [|k ks IH]; cbn [pick]; [intros k []|].
  destruct (h_impl H t k) eqn:E1.
  { split; [left; reflexivity|]. split; [left; exact E1|]. split; [unfold by_address; rewrite E1; reflexivity|]. exists [], ks. split; [reflexivity | intros k' []]. }
  destruct (negb (is_ptr H t) && ca && h_impl H (TPtr t) k) eqn:E2.
  { apply andb_prop in E2. destruct E2 as [E2 E3]. apply andb_prop in E2. destruct E2 as [E2 E4].
    split; [left; reflexivity|]. split; [right; destruct (is_ptr H t); [discriminate|]; auto|]. split; [unfold by_address; rewrite E1; reflexivity|]. exists [], ks. split; [reflexivity | intros k' []]. }
  assert (N : ~ available H t ca k). { intros [A|(A & B & C)]; [congruence|]. rewrite A, B, C in E2. discriminate. }
  destruct (pick H t ca ks) as [[k0 hp]|].
  - destruct IH as (I1 & I2 & I3 & pre & post & -> & I4). split; [right; exact I1|]. split; [exact I2|]. split; [exact I3|]. exists (k :: pre), post. split; [reflexivity|].
    intros k' [<-|Hk]; [exact N | exact (I4 k' Hk)].
  - intros k' [<-|Hk]; [exact N | exact (IH k' Hk)].
Qed.

Lemma method_first H t ca k hp : method_of H t ca = Some (k, hp) <-> first_method H t ca k /\ hp = by_address H t k.
Proof.
  assert (P := pick_spec H t ca [MCtx; MApp; MJson; MText]). fold (method_of H t ca) in P.
  assert (S : forall k hp, method_of H t ca = Some (k, hp) -> first_method H t ca k /\ hp = by_address H t k).
  { intros k0 hp0 E. rewrite E in P. destruct P as (_ & A & -> & pre & post & Ep & N). split; [|reflexivity]. split; [exact A|]. intros k' Hk. apply N.
    destruct pre as [|p0 [|p1 [|p2 [|p3 [|p4 pre]]]]]; cbn in Ep; injection Ep as; subst; try discriminate; destruct k'; cbn in *; auto; lia. }
  split; [apply S|]. intros [[A F] ->]. destruct (method_of H t ca) as [[k0 hp0]|] eqn:E.
  - destruct (S _ _ eq_refl) as [[A0 F0] ->]. assert (k = k0); [|subst; reflexivity].
    assert (~ rank k < rank k0) by (intros X; exact (F0 _ X A)). assert (~ rank k0 < rank k) by (intros X; exact (F _ X A0)). destruct k, k0; cbn in *; try reflexivity; lia.
  - exfalso. apply (P k); [destruct k; cbn; auto | exact A].
Qed.
Lemma method_none H t ca : method_of H t ca = None <-> no_method H t ca.
Proof.
  assert (P := pick_spec H t ca [MCtx; MApp; MJson; MText]). fold (method_of H t ca) in P. destruct (method_of H t ca) as [[k hp]|].
  - split; [discriminate|]. intros N. destruct P as (_ & A & _). destruct (N _ A).
  - split; [|reflexivity]. intros _ k. apply P. destruct k; cbn; auto.
Qed.

(** How the result r of method k is written. *)
Definition presented (o : encOpts) (k : mkind) (r b : bytes) : Prop :=
  match k with
  | MCtx | MApp => b = r
  | MJson => if has (o_flags o) noCompact then b = r else exists j, json_text true j r /\ json no_ws true j b
  | MText => b = 34 :: r ++ [34]
  end.

Lemma method_presented H vcall o k t td w out : host_ok H vcall -> vmethod vcall o k t td w = VRet out None ->
  exists r, vcall k td w (ctx_of o k) = inl r /\ presented o k r out.
Proof.
  intros OK. destruct k; cbn [vmethod ctx_of presented].
  - destruct (vcall MCtx td w (o_ctx o)) as [b|e]; [|discriminate]. intros [= <-]. eauto.
  - destruct (vcall MApp td w None) as [b|e]; [|discriminate]. intros [= <-]. eauto.
  - intros Hr. apply lift_ret in Hr. destruct (vcall MJson td w None) as [b|e] eqn:Ec; [|discriminate Hr]. exists b. split; [reflexivity|].
    assert (Hb := ok_bytes _ _ OK _ _ _ _ _ Ec). cbn [encode_json_result] in Hr. destruct (has (o_flags o) noCompact); [injection Hr as <-; reflexivity|].
    destruct (json_valid b) eqn:Ev; cbn [negb] in Hr; [|discriminate]. injection Hr as <-. rewrite appendCompactJSON_spec by exact Hb. cbn [app].
    unfold json_valid in Ev. destruct (parse_json b) as [j|] eqn:Ej; [|discriminate]. apply (proj1 (parse_json_correct b j Hb)) in Ej.
    exists j. split; [exact Ej|]. destruct (cs_text (negb (has (o_flags o) noHTMLEscaping)) true j b Ej Hb) as (s' & <- & Hj & _). exact Hj.
  - intros Hr. apply lift_ret in Hr. destruct (vcall MText td w None) as [b|e]; [|discriminate Hr]. exists b. split; [reflexivity|].
    cbn [encode_text_result app] in Hr. injection Hr as <-. reflexivity.
Qed.

Lemma method_bytes H vcall o t ca q v k b : host_ok H vcall -> native t = false -> first_method H t ca k -> bytes_of H vcall o (t, ca, q, v) b ->
  (v = VNil /\ by_address H t k = false /\ (is_ptr H t = true \/ is_iface H t = true) /\ b = l_null) \/
  exists td x r, receiver H t (by_address H t k) v td x /\ vcall k td x (ctx_of o k) = inl r /\ presented o k r b.
Proof.
  intros OK Hn F [n Hb]. destruct n as [|n]; [discriminate|]. cbn [venc] in Hb. rewrite Hn in Hb.
  rewrite (proj2 (method_first H t ca k _) (conj F eq_refl)) in Hb. apply vmarshaler_receiver in Hb.
  destruct Hb as [(A1 & A2 & A3 & A4 & _)|(td & x & R & M)]; [left; auto|]. right.
  destruct (method_presented H vcall o _ _ _ _ _ OK M) as (r & A & B). eauto 6.
Qed.

(** ** Addressable values
    Go's rules along the way from the argument (not addressable) to a part:
    what a pointer points to and the elements of a slice are addressable; the
    elements of a map and what an interface holds are not; elements of an array
    and fields of a struct are if the array or struct is.  A field promoted
    through an embedded pointer is addressable too; [emb] says whether such
    fields are allowed on the way. *)
Definition through_pointer (H : host) (t : typ) (f : field) : Prop :=
  exists p i q u, f_index f = p ++ i :: q /\ p <> [] /\ type_by_index H t p = Some u /\ is_ptr H u = true.

Inductive placed (H : host) (o : encOpts) (emb : bool) (t0 : typ) (v0 : val) : node -> bool -> Prop :=
| pl_top : placed H o emb t0 v0 (t0, is_ptr H t0, false, v0) false
| pl_ptr t ca q e v a : placed H o emb t0 v0 (t, ca, q, VPtr v) a -> DocSpec.plain H t ca -> under (h_env H) t = TPtr e -> placed H o emb t0 v0 (e, true, q, v) true
| pl_iface t ca q td v a : placed H o emb t0 v0 (t, ca, q, VIface td v) a -> DocSpec.plain H t ca -> under (h_env H) t = TIface None ->
    placed H o emb t0 v0 (td, is_ptr H td, false, v) false
| pl_slice t ca q e vs v a : placed H o emb t0 v0 (t, ca, q, VSlice vs) a -> DocSpec.plain H t ca -> under (h_env H) t = TSlice e -> byte_elem H e = false -> In v vs ->
    placed H o emb t0 v0 (e, true, false, v) true
| pl_array t ca q n e vs v a : placed H o emb t0 v0 (t, ca, q, VArr vs) a -> DocSpec.plain H t ca -> under (h_env H) t = TArray n e ->
    byte_elem H e && has (o_flags o) byteArrayAsString = false -> In v vs -> placed H o emb t0 v0 (e, ca, false, v) a
| pl_elem t ca q kt et es k v a : placed H o emb t0 v0 (t, ca, q, VMap es) a -> DocSpec.plain H t ca -> under (h_env H) t = TMap kt et -> key_ok H kt = true -> In (k, v) es ->
    placed H o emb t0 v0 (et, false, false, v) false
| pl_field t ca q fs0 n fs vs f ft x a : placed H o emb t0 v0 (t, ca, q, VStruct vs) a -> DocSpec.plain H t ca -> under (h_env H) t = TStruct fs0 ->
    structFields H n t = Some fs -> In f fs -> shown H o t (VStruct vs) f ft x -> ~ drops_null H f ft -> ~ through_pointer H t f ->
    placed H o emb t0 v0 (ft, ca, quoted H f ft, x) a
| pl_promoted t ca q fs0 n fs vs f ft x a : emb = true -> placed H o emb t0 v0 (t, ca, q, VStruct vs) a -> DocSpec.plain H t ca -> under (h_env H) t = TStruct fs0 ->
    structFields H n t = Some fs -> In f fs -> shown H o t (VStruct vs) f ft x -> ~ drops_null H f ft -> through_pointer H t f ->
    placed H o emb t0 v0 (ft, ca, quoted H f ft, x) true
| pl_sval ca q es k vt v a : placed H o emb t0 v0 (TSyncMap, ca, q, VSync es) a -> In (k, VIface vt v) es -> placed H o emb t0 v0 (vt, is_ptr H vt, false, v) false.

Lemma inner_snoc H o x y z : inner H o x y -> inner_child H o y z -> inner H o x z.
Proof. induction 1; intros Hc; [eapply inner_step; [exact Hc | constructor] | eapply inner_step; eauto]. Qed.

Lemma placed_inner H o emb t0 v0 y a : placed H o emb t0 v0 y a -> inner H o (t0, is_ptr H t0, false, v0) y.
Proof.
  induction 1; [constructor|..]; (eapply inner_snoc; [eassumption|]).
  - eapply ic_ptr; eauto.
  - eapply ic_iface; eauto.
  - eapply ic_slice; eauto.
  - eapply ic_array; eauto.
  - eapply ic_elem; eauto.
  - eapply ic_field; eauto.
  - eapply ic_field; eauto.
  - eapply ic_sval; eauto.
Qed.

Lemma inner_placed H o t0 v0 y : (forall t f, through_pointer H t f \/ ~ through_pointer H t f) -> inner H o (t0, is_ptr H t0, false, v0) y -> exists a, placed H o true t0 v0 y a.
Proof.
  intros Dec. assert (G : forall x y, inner H o x y -> forall a, placed H o true t0 v0 x a -> exists a', placed H o true t0 v0 y a').
  { induction 1 as [x|x y0 z Hc _ IH]; [eauto|]. intros a Hp. assert (exists a', placed H o true t0 v0 y0 a') as [a' Ha].
    { inversion Hc; subst.
      - eexists; eapply pl_ptr; eauto.
      - eexists; eapply pl_iface; eauto.
      - eexists; eapply pl_slice; eauto.
      - eexists; eapply pl_array; eauto.
      - eexists; eapply pl_elem; eauto.
      - destruct (Dec t f); [eexists; eapply pl_promoted; eauto | eexists; eapply pl_field; eauto].
      - eexists; eapply pl_sval; eauto. }
    eauto. }
  intros Hi. eapply G; [exact Hi | apply pl_top].
Qed.

(** Without promotion through pointers the code's notion agrees (for pointer
    types it does not matter). *)
Lemma placed_addr H o t0 v0 y a : placed H o false t0 v0 y a -> let '(t, ca, _, _) := y in is_ptr H t = true \/ ca = a.
Proof.
  induction 1 as [ | | | |t ca q n e vs v a Hp IH P U B I| |t ca q fs0 n fs vs f ft x a Hp IH P U| |]; try discriminate.
  - destruct (is_ptr H t0); auto.
  - right. reflexivity.
  - destruct (is_ptr H td); auto.
  - right. reflexivity.
  - right. destruct IH as [X | X]; [ |exact X]. unfold is_ptr in X. rewrite U in X. discriminate.
  - right. reflexivity.
  - right. destruct IH as [X | X]; [ |exact X]. unfold is_ptr in X. rewrite U in X. discriminate.
  - destruct (is_ptr H vt); auto.
Qed.

Lemma available_addr H t a a' k : is_ptr H t = true \/ a = a' -> available H t a k <-> available H t a' k.
Proof. intros [P| ->]; [ |reflexivity]. unfold available. rewrite P. intuition discriminate. Qed.
Lemma first_addr H t a a' k : is_ptr H t = true \/ a = a' -> first_method H t a k <-> first_method H t a' k.
Proof.
  intros P. unfold first_method. rewrite (available_addr H t a a' k P). split; intros [A F]; (split; [exact A|]); intros k' Hk X; apply (F k' Hk), (available_addr H t a a' k' P), X.
Qed.
