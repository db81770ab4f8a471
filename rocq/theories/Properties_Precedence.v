(** C36, exactly: which method encodes a part, at every position. *)
From Verif Require Import Base Utf8 JsonSpec NumberModel NumberProof OptionsModel EscapeModel EscapeProof JsonParse StrictParse CompactModel CompactProof IntModel IntProof TypesModel TypesFacts TagsModel CalendarSpec TimeModel TimeProof
  FloatModel FloatProof LeafModel LeafProof MemModel FieldsModel FieldsProof InstrModel ExecModel ValueModel ExecMono ExecProof HostFacts VencFacts MarshalThm DocSpec EntriesFacts DocLeaf PartFacts DocProof SafeProof ApiFacts
  PartsThm ShapeThm CallFacts MethodsThm ExampleHost ExampleConst ExampleRead Properties_Options Properties_Strings Properties_Numbers Properties_Fields Properties_Members Properties_Maps Properties_Api Properties_Marshalers.

(** A part that Go can address only because of an embedded pointer: a field
    promoted through one, out of a struct that is not addressable, and from
    there the fields that are not promoted through another and the elements of
    arrays.  A pointer, a slice, a map or an interface on the way ends it. *)
Inductive below_embedded (H : host) (o : encOpts) (t0 : typ) (v0 : val) : node -> Prop :=
| be_promoted t q fs0 n fs vs f ft x a : placed H o true t0 v0 (t, false, q, VStruct vs) a -> DocSpec.plain H t false -> under (h_env H) t = TStruct fs0 ->
    structFields H n t = Some fs -> In f fs -> shown H o t (VStruct vs) f ft x -> ~ drops_null H f ft -> through_pointer H t f ->
    below_embedded H o t0 v0 (ft, false, quoted H f ft, x)
| be_field t q fs0 n fs vs f ft x : below_embedded H o t0 v0 (t, false, q, VStruct vs) -> DocSpec.plain H t false -> under (h_env H) t = TStruct fs0 ->
    structFields H n t = Some fs -> In f fs -> shown H o t (VStruct vs) f ft x -> ~ drops_null H f ft -> ~ through_pointer H t f ->
    below_embedded H o t0 v0 (ft, false, quoted H f ft, x)
| be_array t q n e vs v : below_embedded H o t0 v0 (t, false, q, VArr vs) -> DocSpec.plain H t false -> under (h_env H) t = TArray n e ->
    byte_elem H e && has (o_flags o) byteArrayAsString = false -> In v vs -> below_embedded H o t0 v0 (e, false, false, v).

Lemma below_placed H o t0 v0 y : below_embedded H o t0 v0 y -> placed H o true t0 v0 y true.
Proof. induction 1; [eapply pl_promoted; eauto | eapply pl_field; eauto | eapply pl_array; eauto]. Qed.
Lemma below_code H o t0 v0 t ca q v : below_embedded H o t0 v0 (t, ca, q, v) -> ca = false.
Proof. intros B. inversion B; reflexivity. Qed.

(** The code and Go's rules disagree on whether a part is addressable only
    there. *)
Lemma placed_code H o t0 v0 y a : placed H o true t0 v0 y a -> let '(t, ca, _, _) := y in is_ptr H t = true \/ ca = a \/ (a = true /\ ca = false /\ below_embedded H o t0 v0 y).
Proof.
  induction 1 as [ | | | |t ca q n e vs v a Hp IH P U B I| |t ca q fs0 n fs vs f ft x a Hp IH P U S I Sh D T|t ca q fs0 n fs vs f ft x a E Hp IH P U S I Sh D T| ].
  - destruct (is_ptr H t0); auto.
  - auto.
  - destruct (is_ptr H td); auto.
  - auto.
  - destruct IH as [X|[X|(X1 & X2 & X3)]]; [unfold is_ptr in X; rewrite U in X; discriminate | auto|]. subst. right; right. repeat split. eapply be_array; eauto.
  - auto.
  - destruct IH as [X|[X|(X1 & X2 & X3)]]; [unfold is_ptr in X; rewrite U in X; discriminate | auto|]. subst. right; right. repeat split. eapply be_field; eauto.
  - destruct ca; [auto|]. right; right. repeat split. eapply be_promoted; eauto.
  - destruct (is_ptr H vt); auto.
Qed.

(** The first method in Go's order is used, unless the part is addressable by an
    embedded pointer only and the method is one of the pointer type: then only
    the methods of the type itself are considered. *)
Theorem C36_exact H vcall m t w v opts o out t' ca q v' a : host_ok H vcall -> sort_ok H -> call H m t w v opts o -> marshal_returns H m (Some (t, w)) opts (MOk out) ->
  placed H o true t v (t', ca, q, v') a -> native t' = false ->
  exists b, bytes_of H vcall o (t', ca, q, v') b /\ infix b out /\
    (~ below_embedded H o t v (t', ca, q, v') -> (forall k, first_method H t' a k -> method_output H vcall o t' v' k b) /\ (no_method H t' a -> DocSpec.plain H t' ca)) /\
    (below_embedded H o t v (t', ca, q, v') -> (forall k, first_method H t' false k -> method_output H vcall o t' v' k b) /\ (no_method H t' false -> DocSpec.plain H t' ca)).
Proof.
  intros OK SO C R P Hn.
  destruct (call_inner H vcall OK m t w v opts o C out _ SO R (placed_inner _ _ _ _ _ _ _ P)) as (b & Hb & Hi).
  assert (G : forall a', is_ptr H t' = true \/ ca = a' -> (forall k, first_method H t' a' k -> method_output H vcall o t' v' k b) /\ (no_method H t' a' -> DocSpec.plain H t' ca)).
  { intros a' E. split.
    - intros k F. apply (first_addr H t' ca a' k E) in F.
      destruct (method_bytes H vcall o t' ca q v' k b OK Hn F Hb) as [(A1 & _ & A2 & A3)|A]; [left; auto | right; exact A].
    - intros N. split; [exact Hn|]. apply method_none. intros k A. apply (N k), (available_addr H t' ca a' k E), A. }
  exists b. split; [exact Hb|]. split; [exact Hi|]. split; intros B; apply G.
  - destruct (placed_code _ _ _ _ _ _ P) as [X|[X|(_ & _ & X)]]; [auto | auto | contradiction].
  - right. eapply below_code; eauto.
Qed.

(** When the two choices differ. *)
Theorem C36_differs H t : is_ptr H t = false ->
  ((forall k, first_method H t false k <-> first_method H t true k) <->
   ~ exists k, h_impl H (TPtr t) k = true /\ forall k', rank k' <= rank k -> h_impl H t k' = false).
Proof.
  intros P. split.
  - intros E (k & I & N).
    assert (X : exists k1, first_method H t true k1 /\ rank k1 <= rank k).
    { destruct (method_of H t true) as [[k1 hp]|] eqn:M.
      - apply method_first in M. destruct M as [F _]. exists k1. split; [exact F|]. destruct (Z.leb_spec (rank k1) (rank k)) as [L|L]; [exact L|].
        exfalso. apply (proj2 F k L). right. auto.
      - exfalso. apply (proj1 (method_none H t true) M k). right. auto. }
    destruct X as (k1 & F & L). apply E in F. destruct F as [[A|(_ & A & _)] _]; [rewrite (N k1 L) in A; discriminate | discriminate].
  - intros N k. split.
    + intros [[A|(_ & A & _)] F]; [|discriminate]. split; [left; exact A|]. intros k' L [B|(_ & _ & B)]; [apply (F k' L); left; exact B|].
      apply N. exists k'. split; [exact B|]. intros k2 L2. destruct (h_impl H t k2) eqn:I; [|reflexivity]. exfalso. apply (F k2); [lia | left; exact I].
    + intros [A F].
      assert (I : h_impl H t k = true).
      { destruct A as [A|(_ & _ & A)]; [exact A|]. destruct (h_impl H t k) eqn:I; [reflexivity|]. exfalso. apply N. exists k. split; [exact A|].
        intros k' L. destruct (h_impl H t k') eqn:I'; [|reflexivity]. exfalso.
        destruct (Z.eq_dec (rank k') (rank k)) as [Q|Q]; [|apply (F k'); [lia | left; exact I']].
        assert (k' = k) by (destruct k', k; (reflexivity || discriminate Q)). subst. congruence. }
      split; [left; exact I|]. intros k' L [B|(_ & B & _)]; [|discriminate]. apply (F k' L). left. exact B.
Qed.

(** A pointer to a time.Time, time.Duration, json.Number, json.RawMessage or
    sync.Map gives their native encoding exactly when the pointer type has no
    method; otherwise its first method is used. *)
Theorem C36_pointer_exact H vcall m t w v opts o out p t' ca q v' : host_ok H vcall -> sort_ok H -> call H m t w v opts o -> marshal_returns H m (Some (t, w)) opts (MOk out) ->
  inner H o (t, is_ptr H t, false, v) (p, ca, q, VPtr v') -> under (h_env H) p = TPtr t' ->
  exists b, bytes_of H vcall o (p, ca, q, VPtr v') b /\ infix b out /\
    (forall k, h_impl H p k = true -> (forall k', rank k' < rank k -> h_impl H p k' = false) ->
       exists td x r, receiver H p false (VPtr v') td x /\ vcall k td x (ctx_of o k) = inl r /\ presented o k r b) /\
    ((forall k, h_impl H p k = false) -> bytes_of H vcall o (t', true, q, v') b).
Proof.
  intros OK SO C R Hi U. destruct (call_inner H vcall OK m t w v opts o C out _ SO R Hi) as (b & Hb & Ho). exists b. split; [exact Hb|]. split; [exact Ho|].
  assert (P : is_ptr H p = true) by (unfold is_ptr; rewrite U; reflexivity).
  assert (Hn : native p = false) by (destruct p; cbn in U; (reflexivity || discriminate U)).
  split.
  - intros k I N. assert (F : first_method H p ca k). { split; [left; exact I|]. intros k' L [A|(A & _)]; [rewrite (N k' L) in A | rewrite P in A]; discriminate. }
    destruct (method_bytes H vcall o p ca q (VPtr v') k b OK Hn F Hb) as [(A1 & _)|A]; [discriminate|]. replace (by_address H p k) with false in A; [exact A|].
    unfold by_address. rewrite I. reflexivity.
  - intros N. destruct Hb as [n Hb]. destruct n as [|n]; [discriminate|]. cbn [venc] in Hb. rewrite Hn in Hb.
    assert (Hm : method_of H p ca = None). { apply method_none. intros k [A|(A & _)]; [rewrite N in A | rewrite P in A]; discriminate. }
    rewrite Hm in Hb. unfold vkind in Hb. rewrite U in Hb. exists n. exact Hb.
Qed.

(** Outer{&Inner{1}} again: the field is below an embedded pointer, the type has
    no method of its own, and its text is that of the integer. *)
Lemma out_below : below_embedded mtH default_opts (TNamed 2) out_v (TNamed 0, false, false, VInt 1).
Proof. destruct (placed_code _ _ _ _ _ _ out_placed) as [X|[X|(_ & _ & X)]]; [vm_compute in X; discriminate | discriminate | exact X]. Qed.
Example C36_ex_below : bytes_of mtH mtV default_opts (TNamed 0, false, false, VInt 1) (lit "1") /\ infix (lit "1") (lit "{""X"":1}") /\ DocSpec.plain mtH (TNamed 0) false /\
  first_method mtH (TNamed 0) true MJson.
Proof.
  destruct (C36_exact mtH mtV _ _ _ _ _ _ _ _ _ _ _ _ mt_ok mt_sort out_call out_out out_placed eq_refl) as (b & Hb & Hi & _ & G).
  assert (b = lit "1") as -> by (apply (bytes_of_det mtH mtV default_opts _ _ _ Hb); exists 3%nat; vm_compute; reflexivity).
  split; [exact Hb|]. split; [exact Hi|]. split.
  - apply (proj2 (G out_below)). apply method_none. vm_compute. reflexivity.
  - apply (proj1 (method_first mtH (TNamed 0) true MJson true)). vm_compute. reflexivity.
Qed.
Example C36_ex_differs : ~ (forall k, first_method mtH (TNamed 0) false k <-> first_method mtH (TNamed 0) true k) /\
  (forall k, first_method mtH (TNamed 4) false k <-> first_method mtH (TNamed 4) true k).
Proof.
  split.
  - intros E. apply C36_differs in E; [|reflexivity]. apply E. exists MJson. split; [reflexivity|]. intros [] _; reflexivity.
  - apply C36_differs; [reflexivity|]. intros (k & I & N). specialize (N k (Z.le_refl _)). destruct k; vm_compute in I, N; discriminate.
Qed.
(** A pointer to a time: MarshalJSON comes before MarshalText. *)
Example C36_ex_pointer : exists b, bytes_of mtH mtV (config tp_opts) (TPtr TTime, true, false, tp_v) b /\ infix b (lit """1970-01-01T00:00:00Z""") /\
  exists td x r, receiver mtH (TPtr TTime) false tp_v td x /\ mtV MJson td x None = inl r /\ presented (config tp_opts) MJson r b.
Proof.
  destruct (C36_pointer_exact mtH mtV _ _ _ _ _ _ _ (TPtr TTime) TTime true false (VTime (mkTime 0 0 0)) mt_ok mt_sort tp_call tp_out (inner_refl _ _ _) eq_refl) as (b & Hb & Hi & G & _).
  exists b. split; [exact Hb|]. split; [exact Hi|]. apply (G MJson); [reflexivity|]. intros [] L; (reflexivity || (vm_compute in L; discriminate L)).
Qed.

Print Assumptions C36_exact.
Print Assumptions C36_differs.
Print Assumptions C36_pointer_exact.
