(** C18-C21, C42, C43: which struct fields are written, where their values come
    from, and the objects written for them. *)
From Coq Require Import Permutation Sorted.
From Verif Require Import Base Utf8 JsonSpec OptionsModel EscapeModel EscapeProof JsonParse IntModel IntProof TypesModel TypesFacts TagsModel TagsProof TimeModel FloatModel LeafProof MemModel FieldsSpec FieldsModel
  FieldsSelect FieldsProof FieldsThm InstrModel ExecModel ValueModel ExecProof HostFacts VencFacts MarshalThm DocSpec EntriesFacts DocLeaf PartFacts DocProof SafeProof ApiFacts PartsThm ShapeThm CallFacts
  ExampleHost ExampleConst ExampleRead Properties_Options.

Notation tyok H := (typ_ok (h_letter H) (h_udigit H)).

(** ** The object written for a struct inside the value *)
Lemma struct_written H vcall m t w v opts o out st ca q fs0 vs : host_ok H vcall -> sort_ok H ->
  call H m t w v opts o -> marshal_returns H m (Some (t, w)) opts (MOk out) ->
  inner H o (t, is_ptr H t, false, v) (st, ca, q, VStruct vs) -> DocSpec.plain H st ca -> under (h_env H) st = TStruct fs0 ->
  tyok H st /\ exists k fs l, structFields H k st = Some fs /\ shown_bytes H vcall o st ca (VStruct vs) fs l /\ infix (object_text o l) out.
Proof.
  intros OK SO C R Hi P U. destruct (call_inner H vcall OK m t w v opts o C out _ SO R Hi) as (b & Hb & Hx).
  assert (T := call_part_tok H vcall OK m t w v opts o C _ (inner_part H o _ _ Hi)). cbn in T. split; [exact T|].
  destruct (struct_bytes H vcall OK o st ca q fs0 vs b T P U Hb) as (k & fs & l & S & Hs & ->). exists k, fs, l. auto.
Qed.

(** ** C18 *)
(** Index paths in lexicographic order. *)
Inductive before : list nat -> list nat -> Prop :=
| bf_prefix x a : before [] (x :: a)
| bf_here x y a b : (x < y)%nat -> before (x :: a) (y :: b)
| bf_later x a b : before a b -> before (x :: a) (x :: b).

Lemma before_less a : forall b, index_less a b = true -> before a b.
Proof.
  induction a as [|x a IH]; intros [|y b] Hl; cbn [index_less] in Hl; try discriminate; [constructor|].
  destruct (x =? y)%nat eqn:E; [apply Nat.eqb_eq in E; subst; apply bf_later, IH, Hl | apply bf_here, Nat.ltb_lt, Hl].
Qed.

Notation cand H t := (candidate (h_env H) (h_off H) (h_letter H) (h_udigit H) t).
Notation sole H t := (only_least (h_env H) (h_off H) (h_letter H) (h_udigit H) t).
Notation first_rank H t := (least (h_env H) (h_off H) (h_letter H) (h_udigit H) t).
Notation steps H t := (epath (h_env H) (h_off H) (h_letter H) (h_udigit H) t).
Notation embeds_ H := (embeds (h_env H) (h_letter H) (h_udigit H)).

Theorem C18_order_unique H vcall t k fs : host_ok H vcall -> tyok H t -> structFields H k t = Some fs ->
  StronglySorted before (map f_index fs) /\ NoDup (map f_name fs).
Proof.
  intros OK T S. destruct (structFields_sorted H (ok_wf _ _ OK) t T k fs S) as [A B]. split; [|exact B].
  apply StronglySorted_map. clear - A. unfold index_sorted in A. induction A as [|x l _ IH Hx]; constructor; [exact IH|]. eapply Forall_impl; [|exact Hx]. intros y. apply before_less.
Qed.

(** The documented rule: a candidate is selected exactly when it is the only one
    of least rank with its name. *)
Definition selection_correct (H : host) : Prop :=
  forall t k fs index name tagged, tyok H t -> structFields H k t = Some fs ->
    ((exists f, In f fs /\ f_index f = index /\ f_name f = name /\ f_tag f = tagged) <-> sole H t index name tagged).

(** What holds of every struct type: the search ends; every candidate that the
    rule selects is selected; every one selected is of least rank for its name;
    and the rule is followed exactly by types where no struct embedded twice at
    its least depth embeds another one. *)
Definition single_diamonds (H : host) (t : typ) : Prop :=
  forall p q sq sq' w i b u, steps H t p sq w -> steps H t q sq' w -> p <> q -> length p = length q ->
    (forall r sqr, steps H t r sqr w -> (length p <= length r)%nat) -> ~ embeds_ H w i b u.

Theorem C18_selection_partial H vcall t : host_ok H vcall -> tyok H t ->
  exists k fs, structFields H k t = Some fs /\
    (forall index name tagged, sole H t index name tagged -> exists f, In f fs /\ f_index f = index /\ f_name f = name /\ f_tag f = tagged) /\
    (forall f, In f fs -> first_rank H t (f_index f) (f_name f) (f_tag f)) /\
    (single_diamonds H t -> forall f, In f fs -> sole H t (f_index f) (f_name f) (f_tag f)).
Proof.
  intros OK T. destruct (ok_fields _ _ OK t T) as (k & fs & S). exists k, fs. split; [exact S|]. assert (W := ok_wf _ _ OK). split; [|split].
  - intros index name tagged. apply (structFields_complete H W t T k fs index name tagged S).
  - intros f. apply (structFields_least H W t T k fs f S).
  - intros D f. apply (structFields_exact H W t T k fs f); [|exact S]. intros p q sq sq' w i b u P1 P2 Ne L Hd He. apply (D p q sq sq' w i b u P1 P2 Ne L).
    + intros r sqr Pr. destruct (Nat.le_gt_cases (length p) (length r)) as [|C]; [assumption|]. exfalso. apply (proj2 Hd (length r) C). exists r, sqr. auto.
    + apply (edge_iff H W); [eapply path_ok; eauto | exact He].
Qed.

(** The rule the code follows, for every struct type.  A struct type counts once,
    at its least depth and through the first of the shortest paths to it; a field
    is selected when its struct type is not embedded twice there, and no other
    field of a struct type that is reached has the same name and a rank as good.
    This differs from the documented rule in that the paths to the structs that
    embed a struct type are not counted. *)
Notation short H t := (shortest (h_env H) (h_off H) (h_letter H) (h_udigit H) t).
Definition selected (H : host) (t : typ) (index : list nat) (name : bytes) (tagged : bool) : Prop :=
  exists p w i u opts, short H t p w /\ (forall q, short H t q w -> q = p \/ before p q) /\ index = p ++ [i] /\
    candidate_here (h_env H) (h_letter H) (h_udigit H) w i u name tagged opts /\
    ~ embedded_twice (h_env H) (h_off H) (h_letter H) (h_udigit H) t w /\
    forall q w' j u' g opts', short H t q w' -> candidate_here (h_env H) (h_letter H) (h_udigit H) w' j u' name g opts' ->
      rank_le (length q) g (length p) tagged -> w' = w /\ j = i.

Lemma less_before a : forall b, before a b -> index_less a b = true.
Proof.
  intros b Hb. induction Hb as [x a|x y a b Hx|x a b _ IH]; cbn [index_less]; [reflexivity | | rewrite Nat.eqb_refl; exact IH].
  destruct (Nat.eqb_spec x y); [lia|]. apply Nat.ltb_lt, Hx.
Qed.

Lemma short_dist H t p w : short H t p w <-> dist H t w (length p) /\ exists sq, steps H t p sq w.
Proof.
  split.
  - intros [[sq Hp] Hm]. split; [|exists sq; exact Hp]. split; [exists p, sq; auto|]. intros n Hn (q & sq' & Hq & Lq). specialize (Hm q sq' Hq). lia.
  - intros [[_ Hm] [sq Hp]]. split; [exists sq; exact Hp|]. intros q sq' Hq. destruct (Nat.le_gt_cases (length p) (length q)) as [|C]; [assumption|].
    exfalso. apply (Hm (length q) C). exists q, sq'. auto.
Qed.

Lemma twice_dup2 H t p w : wf_host H -> tyok H t -> short H t p w ->
  (embedded_twice (h_env H) (h_off H) (h_letter H) (h_udigit H) t w <-> dup2 H t w (length p)).
Proof.
  intros W T Hs. assert (Hd := proj1 (proj1 (short_dist H t p w) Hs)). split.
  - intros (q & i & w1 & r & j & w2 & S1 & S2 & S3 & S4 & Ne). apply short_dist in S1, S2, S3, S4.
    destruct S1 as (D1 & sq1 & P1), S2 as (D2 & sq2 & P2), S3 as (D3 & sq3 & P3), S4 as (D4 & sq4 & P4).
    apply (path_snoc_inv H W t T) in P1. destruct P1 as (sq1' & w1' & b1 & Q1 & E1 & _). destruct (path_det H W t T _ _ _ P2 _ _ Q1) as [_ <-].
    apply (path_snoc_inv H W t T) in P3. destruct P3 as (sq3' & w3' & b3 & Q3 & E3 & _). destruct (path_det H W t T _ _ _ P4 _ _ Q3) as [_ <-].
    assert (L1 := dist_det H t _ _ _ Hd D1). assert (L3 := dist_det H t _ _ _ Hd D3). rewrite app_length in L1, L3. cbn [length] in L1, L3.
    exists (length q), w1, i, b1, w2, j, b3. split; [lia|]. split; [exact D2|]. split; [replace (length q) with (length r) by lia; exact D4|]. auto.
  - intros (m & w1 & i & b1 & w2 & j & b2 & Em & D1 & D2 & E1 & E2 & Ne).
    destruct (proj1 D1) as (q & sq & Pq & Lq), (proj1 D2) as (r & sr & Pr & Lr).
    assert (Q := path_snoc H W t T _ _ _ _ _ _ Pq E1). assert (R := path_snoc H W t T _ _ _ _ _ _ Pr E2).
    exists q, i, w1, r, j, w2. split; [apply short_dist; split; [rewrite app_length; cbn [length]; replace (length q + 1)%nat with (length p) by lia; exact Hd | eauto]|].
    split; [apply short_dist; split; [rewrite Lq; exact D1 | eauto]|].
    split; [apply short_dist; split; [rewrite app_length; cbn [length]; replace (length r + 1)%nat with (length p) by lia; exact Hd | eauto]|].
    split; [apply short_dist; split; [rewrite Lr; exact D2 | eauto] | exact Ne].
Qed.

Theorem C18_exact H vcall t k fs index name tagged : host_ok H vcall -> tyok H t -> structFields H k t = Some fs ->
  ((exists f, In f fs /\ f_index f = index /\ f_name f = name /\ f_tag f = tagged) <-> selected H t index name tagged).
Proof.
  intros OK T S. assert (W := ok_wf _ _ OK). rewrite (structFields_chosen H W t T k fs index name tagged S). split.
  - intros (p & sq & w & i & v & opts & Hp & Hd & Hf & -> & Hc & Hn & Hu). exists p, w, i, v, opts.
    assert (Sp : short H t p w) by (apply short_dist; split; [exact Hd | eauto]). split; [exact Sp|]. split.
    { intros q Sq. apply short_dist in Sq. destruct Sq as (Dq & sq' & Pq). destruct (Hf q sq' Pq (dist_det H t _ _ _ Dq Hd)) as [|C]; [auto|]. right. apply before_less, C. }
    split; [reflexivity|]. split; [exact Hc|]. split; [intros C; apply Hn, (twice_dup2 H t p w W T Sp), C|].
    intros q w' j u' g opts' Sq Cq. apply short_dist in Sq. destruct Sq as (Dq & sq' & Pq). apply (Hu q sq' w' j u' g opts' Pq Dq Cq).
  - intros (p & w & i & v & opts & Sp & Hf & -> & Hc & Hn & Hu). assert (Sp' := Sp). apply short_dist in Sp'. destruct Sp' as (Dp & sq & Pp).
    exists p, sq, w, i, v, opts. split; [exact Pp|]. split; [exact Dp|]. split.
    { intros q sq' Pq Lq. destruct (Hf q) as [|C]; [apply short_dist; rewrite Lq; eauto | auto|]. right. apply less_before, C. }
    split; [reflexivity|]. split; [exact Hc|]. split; [intros C; apply Hn, (twice_dup2 H t p w W T Sp), C|].
    intros q sq' w' j u' g opts' Pq Dq Cq. apply (Hu q w' j u' g opts'); [apply short_dist; eauto | exact Cq].
Qed.

(** type Y struct{ A int }; X struct{ Y }; L struct{ X }; R struct{ X }; T struct{ L; R } *)
Definition emb (name : string) (t : typ) : fdecl * typ := (mkFD (lit name) false true [], t).
Definition diamH : host := plainH
  [TStruct [fld "A" "" (TInt KInt)]; TStruct [emb "Y" (TNamed 0)]; TStruct [emb "X" (TNamed 1)]; TStruct [emb "X" (TNamed 1)]; TStruct [emb "L" (TNamed 2); emb "R" (TNamed 3)]].
Lemma diam_ok : host_ok diamH plainV. Proof. apply plainH_ok. vm_compute. reflexivity. Qed.

Lemma no_valid_empty l u : ~ valid_name l u [].
Proof. intros [C _]. apply C. reflexivity. Qed.

Lemma emb_embeds ds t i fs name n fs' : under (decl_env ds) t = TStruct fs -> nth_error fs i = Some (emb name (TNamed n)) -> under (decl_env ds) (TNamed n) = TStruct fs' ->
  embeds (decl_env ds) ascii_letter ascii_digit t i false (TNamed n).
Proof.
  intros U Hn U'. exists fs, (mkFD (lit name) false true []), (TNamed n), [], []. split; [exact U|]. split; [exact Hn|].
  split; [split; [left; reflexivity | discriminate]|]. split; [reflexivity|]. split; [split; [reflexivity | split; [intros [] | constructor]]|].
  split; [apply no_valid_empty|]. split; [right; split; [discriminate | reflexivity]|]. split; [exists fs'; exact U'|]. split; [discriminate|]. intros (e & C). congruence.
Qed.

Lemma diam_path1 : steps diamH (TNamed 4) [0; 0; 0]%nat [(0, false); (0, false); (0, false)] (TNamed 0).
Proof.
  apply (ep_snoc (h_env diamH) (h_off diamH) (h_letter diamH) (h_udigit diamH) (TNamed 4) [0; 0]%nat [(0, false); (0, false)] (TNamed 1) 0 false [emb "Y" (TNamed 0)]); [|eapply emb_embeds; reflexivity | reflexivity].
  apply (ep_snoc (h_env diamH) (h_off diamH) (h_letter diamH) (h_udigit diamH) (TNamed 4) [0]%nat [(0, false)] (TNamed 2) 0 false [emb "X" (TNamed 1)]); [|eapply emb_embeds; reflexivity | reflexivity].
  apply (ep_snoc (h_env diamH) (h_off diamH) (h_letter diamH) (h_udigit diamH) (TNamed 4) [] [] (TNamed 4) 0 false [emb "L" (TNamed 2); emb "R" (TNamed 3)]); [constructor | eapply emb_embeds; reflexivity | reflexivity].
Qed.
Lemma diam_path2 : steps diamH (TNamed 4) [1; 0; 0]%nat [(8, false); (0, false); (0, false)] (TNamed 0).
Proof.
  apply (ep_snoc (h_env diamH) (h_off diamH) (h_letter diamH) (h_udigit diamH) (TNamed 4) [1; 0]%nat [(8, false); (0, false)] (TNamed 1) 0 false [emb "Y" (TNamed 0)]); [|eapply emb_embeds; reflexivity | reflexivity].
  apply (ep_snoc (h_env diamH) (h_off diamH) (h_letter diamH) (h_udigit diamH) (TNamed 4) [1]%nat [(8, false)] (TNamed 3) 0 false [emb "X" (TNamed 1)]); [|eapply emb_embeds; reflexivity | reflexivity].
  apply (ep_snoc (h_env diamH) (h_off diamH) (h_letter diamH) (h_udigit diamH) (TNamed 4) [] [] (TNamed 4) 1 false [emb "L" (TNamed 2); emb "R" (TNamed 3)]); [constructor | eapply emb_embeds; reflexivity | reflexivity].
Qed.
Lemma diam_cand p sq : steps diamH (TNamed 4) p sq (TNamed 0) -> cand diamH (TNamed 4) (p ++ [0%nat]) (lit "A") false.
Proof.
  intros Hp. exists p, sq, (TNamed 0), 0%nat, (TInt KInt), []. split; [exact Hp|]. split; [|reflexivity].
  exists [fld "A" "" (TInt KInt)], (mkFD (lit "A") false false []), []. split; [reflexivity|]. split; [reflexivity|]. split; [split; [left; reflexivity | discriminate]|].
  split; [split; [reflexivity | split; [intros [] | constructor]]|]. right. split; [apply no_valid_empty|]. split; [reflexivity|]. split; [reflexivity | discriminate].
Qed.

Definition diam_v : val :=
  VStruct [VStruct [VStruct [VStruct [VInt 1]]]; VStruct [VStruct [VStruct [VInt 2]]]].

(** Both L.X.Y.A and R.X.Y.A are candidates of the same rank, so neither should
    be written; the first is. *)
Theorem C18_selection_refuted : exists H vcall, host_ok H vcall /\ ~ selection_correct H /\
  exists m t w v, holds H m t w v /\ marshal_returns H m (Some (t, w)) [] (MOk (lit "{""A"":1}")) /\ forall index tagged, ~ sole H t index (lit "A") tagged.
Proof.
  exists diamH, plainV. split; [exact diam_ok|].
  assert (N : forall index tagged, ~ sole diamH (TNamed 4) index (lit "A") tagged).
  { intros index tagged [Hc Hu].
    assert (R : forall g, rank_le 4 g (length index) tagged).
    { intros g. destruct Hc as (p & sq & w & i & u & opts & Hp & Hh & ->). rewrite app_length. cbn [length].
      assert (L : (length p = 3)%nat /\ tagged = false \/ (3 < length p)%nat).
      { (* no struct less deep has a field of that name, and none is tagged *)
        assert (G : forall p sq w, steps diamH (TNamed 4) p sq w -> (length p = 0 /\ w = TNamed 4 \/ length p = 1 /\ (w = TNamed 2 \/ w = TNamed 3) \/ length p = 2 /\ w = TNamed 1 \/ length p = 3 /\ w = TNamed 0)%nat).
        { clear. intros p sq w Hp. induction Hp as [|p sq w i isptr fs u Hp IH He Hs]; [left; auto|]. rewrite app_length. cbn [length].
          destruct He as (fs' & d & u' & n & opts & A1 & A2 & _ & A4 & _ & _ & A7 & A8 & _). unfold struct_of in A1.
          destruct IH as [[L ->]|[[L [-> | ->]]|[[L ->]|[L ->]]]]; cbn in A1; injection A1 as <-.
          - destruct i as [|[|[|]]]; cbn in A2; try discriminate; injection A2 as <- <-; (destruct A7 as [C|[_ ->]]; [discriminate|]); right; left; (split; [lia|]); auto.
          - destruct i as [|[|]]; cbn in A2; try discriminate; injection A2 as <- <-; (destruct A7 as [C|[_ ->]]; [discriminate|]); right; right; left; (split; [lia|]); auto.
          - destruct i as [|[|]]; cbn in A2; try discriminate; injection A2 as <- <-; (destruct A7 as [C|[_ ->]]; [discriminate|]); right; right; left; (split; [lia|]); auto.
          - destruct i as [|[|]]; cbn in A2; try discriminate; injection A2 as <- <-; (destruct A7 as [C|[_ ->]]; [discriminate|]); right; right; right; (split; [lia|]); auto.
          - destruct i as [|[|]]; cbn in A2; try discriminate; injection A2 as <- <-; discriminate A4. }
        specialize (G p sq w Hp). destruct Hh as (fs & d & n & A1 & A2 & A3 & (A4 & A5 & _) & A6). unfold struct_of in A1.
        assert (Tn : fd_tag d = [] -> n = []). { intros Et. rewrite Et in A4. destruct n as [|c n]; [reflexivity|]. cbn in A4. destruct opts; discriminate. }
        destruct G as [[L ->]|[[L [-> | ->]]|[[L ->]|[L ->]]]]; cbn in A1; injection A1 as <-;
          destruct i as [|[|[|]]]; cbn in A2; try discriminate; injection A2 as <- <-; specialize (Tn eq_refl); subst n;
          (destruct A6 as [[C _]|(_ & C1 & C2 & C3)]; [destruct (no_valid_empty _ _ C)|]); try discriminate C1.
        left. split; [lia | exact C2]. }
      unfold rank_le. destruct L as [[L ->]|L]; [right; split; [lia | right; reflexivity] | left; lia]. }
    assert (E1 := Hu _ false (diam_cand _ _ diam_path1) (R false)). assert (E2 := Hu _ false (diam_cand _ _ diam_path2) (R false)). rewrite <- E1 in E2. discriminate. }
  split.
  - intros SC. assert (T : tyok diamH (TNamed 4)) by exact I.
    destruct (structFields diamH 10 (TNamed 4)) as [fs|] eqn:S; [|vm_compute in S; discriminate].
    assert (X := proj1 (SC (TNamed 4) 10%nat fs [0; 0; 0; 0]%nat (lit "A") false T S)). apply (N [0; 0; 0; 0]%nat false), X.
    vm_compute in S. injection S as <-. eexists. split; [left; reflexivity|]. repeat split.
  - exists (mem_of diamH (TNamed 4) diam_v), (TNamed 4), (word_of diamH (TNamed 4) diam_v), diam_v.
    split; [apply (holdsb_ok diamH declb declb_ok _ 10); vm_compute; reflexivity|]. split; [exists 10%nat; split; [vm_compute; reflexivity | discriminate] | exact N].
Qed.

(** The rule of the code selects the first of the two. *)
Example C18_exact_ex : selected diamH (TNamed 4) [0; 0; 0; 0]%nat (lit "A") false /\ ~ selected diamH (TNamed 4) [1; 0; 0; 0]%nat (lit "A") false.
Proof.
  destruct (structFields diamH 10 (TNamed 4)) as [fs|] eqn:S; [|vm_compute in S; discriminate].
  assert (X := fun index => C18_exact diamH plainV (TNamed 4) 10%nat fs index (lit "A") false diam_ok I S). vm_compute in S. injection S as <-. split.
  - apply X. eexists. split; [left; reflexivity|]. repeat split.
  - intros C. apply X in C. destruct C as (f & [<-|[]] & C & _). discriminate C.
Qed.

(** ** C42: tags *)
(** Where a selected field is declared: at the end of its index path, as field
    (d, u) of a struct, with the tag n,opts. *)
Definition declared (H : host) (st : typ) (f : field) (d : fdecl) (u : typ) (n : bytes) (opts : list bytes) : Prop :=
  exists p sq w fsw i, f_index f = p ++ [i] /\ steps H st p sq w /\ under (h_env H) w = TStruct fsw /\ nth_error fsw i = Some (d, u) /\
    fd_tag d = join (n :: opts) /\ no_comma n /\ Forall no_comma opts.

Lemma declared_det H vcall st f d u n opts d' u' n' opts' : host_ok H vcall -> tyok H st ->
  declared H st f d u n opts -> declared H st f d' u' n' opts' -> d = d' /\ u = u' /\ n = n' /\ opts = opts'.
Proof.
  intros OK T (p & sq & w & fsw & i & A1 & A2 & A3 & A4 & A5 & A6 & A7) (p' & sq' & w' & fsw' & i' & B1 & B2 & B3 & B4 & B5 & B6 & B7).
  rewrite A1 in B1. apply app_inj_tail in B1. destruct B1 as [<- <-]. destruct (path_det H (ok_wf _ _ OK) st T _ _ _ A2 _ _ B2) as [_ <-].
  assert (fsw = fsw') by congruence. subst fsw'. rewrite A4 in B4. injection B4 as <- <-.
  assert (X : parse_tag (fd_tag d) = (n, opts)) by (apply parse_tag_spec; auto). assert (Y : parse_tag (fd_tag d) = (n', opts')) by (apply parse_tag_spec; auto).
  rewrite X in Y. injection Y as <- <-. auto.
Qed.

(** The name is the tag up to the first comma if that is a valid name, else the
    name in the Go source; an option is active when it is one whole item of the
    rest; no field with the tag "-" is selected. *)
Theorem C42_tags H vcall st k fs f : host_ok H vcall -> tyok H st -> structFields H k st = Some fs -> In f fs ->
  exists d u n opts, declared H st f d u n opts /\ type_by_index H st (f_index f) = Some u /\ fd_tag d <> [45] /\
    (valid_name (h_letter H) (h_udigit H) n -> f_name f = n) /\ (~ valid_name (h_letter H) (h_udigit H) n -> f_name f = fd_name d) /\
    (f_omitEmpty f = true <-> In (lit "omitempty") opts) /\ (f_omitNil f = true <-> In (lit "omitnil") opts) /\
    (f_quoted f = true <-> In (lit "string") opts /\ isBasicType (h_env H) (strip_ptr u) = true).
Proof.
  intros OK T S Hf. destruct (structFields_data H (ok_wf _ _ OK) st T k fs f S Hf) as (p & sq & w & i & u & opts & A1 & A2 & A3 & A4 & A5 & A6 & _).
  destruct A3 as (fsw & d & n & B1 & B2 & (_ & B3) & B4 & B5). exists d, u, n, opts. split; [exists p, sq, w, fsw, i; destruct B4 as (C1 & C2 & C3); auto 10|].
  split. { assert (X := promoted_type H p st sq w i d u A2). unfold fields_of in X. rewrite B1 in X. rewrite A1. apply X; [exact B2 | exists fsw; exact B1]. }
  split; [exact B3|]. split; [intros V; destruct B5 as [(_ & -> & _)|(C & _)]; [reflexivity | tauto]|]. split; [intros V; destruct B5 as [(C & _)|(_ & -> & _)]; [tauto | reflexivity]|].
  rewrite A4, A5, A6, andb_true_iff, !tag_contains_spec. tauto.
Qed.

(** Nor is a field inside an embedded struct with the tag "-". *)
Theorem C42_dash H vcall st k fs f p i r sq w fsw d u : host_ok H vcall -> tyok H st -> structFields H k st = Some fs -> In f fs ->
  f_index f = p ++ i :: r -> steps H st p sq w -> under (h_env H) w = TStruct fsw -> nth_error fsw i = Some (d, u) -> fd_tag d <> lit "-".
Proof.
  intros OK T S Hf Hi Hp U Hn. assert (W := ok_wf _ _ OK). destruct (list_eq_dec Nat.eq_dec r []) as [->|Nr].
  - destruct (C42_tags H vcall st k fs f OK T S Hf) as (d' & u' & n & opts & (p' & sq' & w' & fsw' & i' & B1 & B2 & B3 & B4 & _) & _ & B5 & _).
    rewrite Hi in B1. apply app_inj_tail in B1. destruct B1 as [<- <-]. destruct (path_det H W st T _ _ _ Hp _ _ B2) as [_ <-]. assert (fsw = fsw') by congruence. subst fsw'.
    rewrite Hn in B4. injection B4 as <- <-. exact B5.
  - destruct (structFields_data H W st T k fs f S Hf) as (p' & sq' & w' & i' & u' & opts & A1 & A2 & _). destruct (exists_last Nr) as (r' & j & ->).
    rewrite Hi in A1. change (p ++ i :: r' ++ [j]) with (p ++ (i :: r') ++ [j]) in A1. rewrite app_assoc in A1. apply app_inj_tail in A1. destruct A1 as [<- <-]. clear - W T Hp U Hn A2.
    assert (G : forall r sqx wx, steps H st (p ++ i :: r) sqx wx -> fd_tag d <> lit "-").
    { clear A2. induction r as [|j' r IH] using rev_ind; intros sqx wx A.
      - apply (path_snoc_inv H W st T) in A. destruct A as (sq2 & w2 & b & A & E & _). destruct (path_det H W st T _ _ _ Hp _ _ A) as [_ <-].
        apply (edge_iff H W) in E; [|eapply path_ok; eauto]. destruct E as (fs' & d' & u2 & n & opts2 & E1 & E2 & (_ & E3) & _). unfold struct_of in E1.
        assert (fs' = fsw) by congruence. subst fs'. rewrite Hn in E2. injection E2 as <- <-. exact E3.
      - change (p ++ i :: r ++ [j']) with (p ++ (i :: r) ++ [j']) in A. rewrite app_assoc in A. apply (path_snoc_inv H W st T) in A. destruct A as (sq2 & w2 & b & A & _). eapply IH, A. }
    eapply G, A2.
Qed.

(** ** C20: fields left out *)
(** The value at the end of an index path: through embedded structs and
    pointers to them; [None] when a pointer on the way is nil. *)
Inductive leads : list nat -> val -> option val -> Prop :=
| ld_here i vs x : nth_error vs i = Some x -> leads [i] (VStruct vs) (Some x)
| ld_struct i j p vs vs' r : nth_error vs i = Some (VStruct vs') -> leads (j :: p) (VStruct vs') r -> leads (i :: j :: p) (VStruct vs) r
| ld_ptr i j p vs y r : nth_error vs i = Some (VPtr y) -> leads (j :: p) y r -> leads (i :: j :: p) (VStruct vs) r
| ld_nil i j p vs : nth_error vs i = Some VNil -> leads (i :: j :: p) (VStruct vs) None.

Lemma vget_leads p : forall v r, p <> [] -> (vget p v = Some r <-> leads p v r).
Proof.
  induction p as [|i p IH]; intros v r Hp; [congruence|]. cbn [vget]. split.
  - destruct v; try discriminate. destruct (nth_error vs i) as [x|] eqn:Ei; [|discriminate]. destruct p as [|j p]; [intros [= <-]; constructor; exact Ei|].
    destruct x; try (cbn [vget]; discriminate).
    + intros [= <-]. apply ld_nil. exact Ei.
    + intros Hg. eapply ld_ptr; [exact Ei|]. apply IH; [discriminate | exact Hg].
    + intros Hg. eapply ld_struct; [exact Ei|]. apply IH; [discriminate | exact Hg].
  - intros Hl. inversion Hl as [i' vs x Ei|i' j p' vs vs' r' Ei Hl'|i' j p' vs y r' Ei Hl'|i' j p' vs Ei]; subst; rewrite Ei.
    + reflexivity.
    + apply IH; [discriminate | exact Hl'].
    + apply IH; [discriminate | exact Hl'].
    + reflexivity.
Qed.

(** false, 0, an empty string, map or slice, an array without elements, a nil
    pointer, interface, map or slice. *)
Inductive empty_value : val -> Prop :=
| em_false : empty_value (VBool false)
| em_zero : empty_value (VInt 0)
| em_float neg : empty_value (VFloat (FZero neg))
| em_str : empty_value (VStr [])
| em_nil : empty_value VNil
| em_slice : empty_value (VSlice [])
| em_array : empty_value (VArr [])
| em_map : empty_value (VMap []).

Lemma vempty_iff v : vempty v = true <-> empty_value v.
Proof.
  split.
  - destruct v; cbn [vempty]; try discriminate.
    + destruct b; [discriminate | constructor].
    + intros E. assert (n = 0) by lia. subst n. constructor.
    + destruct f; try discriminate. constructor.
    + destruct s; [constructor | discriminate].
    + constructor.
    + destruct vs; [constructor | discriminate].
    + destruct vs; [constructor | discriminate].
    + destruct es; [constructor | discriminate].
  - intros []; reflexivity.
Qed.

Definition tag_item (H : host) (st : typ) (f : field) (x : bytes) : Prop := exists d u n opts, declared H st f d u n opts /\ In x opts.

Inductive sublist {A} : list A -> list A -> Prop :=
| sub_nil : sublist [] []
| sub_skip x l l' : sublist l l' -> sublist l (x :: l')
| sub_keep x l l' : sublist l l' -> sublist (x :: l) (x :: l').

Lemma shown_sublist H vcall o st ca v fs l : shown_bytes H vcall o st ca v fs l -> sublist (map fst l) fs.
Proof. induction 1; cbn [map fst]; constructor; assumption. Qed.

Lemma field_index_nonempty H vcall st k fs f : host_ok H vcall -> tyok H st -> structFields H k st = Some fs -> In f fs -> f_index f <> [].
Proof.
  intros OK T S Hf. destruct (C42_tags H vcall st k fs f OK T S Hf) as (d & u & n & opts & (p & sq & w & fsw & i & -> & _) & _). intros C. apply app_eq_nil in C. destruct C. discriminate.
Qed.

Lemma flag_item H vcall st k fs f : host_ok H vcall -> tyok H st -> structFields H k st = Some fs -> In f fs ->
  (f_omitEmpty f = true <-> tag_item H st f (lit "omitempty")) /\ (f_omitNil f = true <-> tag_item H st f (lit "omitnil")).
Proof.
  intros OK T S Hf. destruct (C42_tags H vcall st k fs f OK T S Hf) as (d & u & n & opts & D & _ & _ & _ & _ & O1 & O2 & _). rewrite O1, O2. unfold tag_item. split; (split; [eauto 8|]);
    intros (d' & u' & n' & opts' & D' & Hi); destruct (declared_det H vcall st f _ _ _ _ _ _ _ _ OK T D D') as (_ & _ & _ & <-); exact Hi.
Qed.

(** The members written for a struct: in the order of the selected fields, those
    that no list conceals, whose value is there, and that are not left out by
    omitempty or omitnil. *)
Theorem C20_fields_present H vcall m t w v opts o out st ca q fs0 vs : host_ok H vcall -> sort_ok H ->
  call H m t w v opts o -> marshal_returns H m (Some (t, w)) opts (MOk out) ->
  inner H o (t, is_ptr H t, false, v) (st, ca, q, VStruct vs) -> DocSpec.plain H st ca -> under (h_env H) st = TStruct fs0 ->
  exists k fs l, structFields H k st = Some fs /\ infix (object_text o l) out /\ sublist (map fst l) fs /\
    forall f, In f fs ->
      (In f (map fst l) <-> ~ concealed opts (f_name f) /\ exists x, leads (f_index f) (VStruct vs) (Some x) /\
         ~ (tag_item H st f (lit "omitempty") /\ empty_value x) /\ ~ (tag_item H st f (lit "omitnil") /\ x = VNil)).
Proof.
  intros OK SO C R Hi P U. destruct (struct_written H vcall m t w v opts o out st ca q fs0 vs OK SO C R Hi P U) as (T & k & fs & l & S & Hs & Hx).
  exists k, fs, l. split; [exact S|]. split; [exact Hx|]. split; [eapply shown_sublist, Hs|]. intros f Hf. rewrite <- denied_concealed, <- (call_config _ _ _ _ _ _ _ C).
  assert (Ne := field_index_nonempty H vcall st k fs f OK T S Hf). destruct (flag_item H vcall st k fs f OK T S Hf) as [O1 O2].
  assert (Dr : forall x, dropped f x <-> (tag_item H st f (lit "omitempty") /\ empty_value x) \/ (tag_item H st f (lit "omitnil") /\ x = VNil)).
  { intros x. unfold dropped. rewrite O1, O2, vempty_iff. unfold vnil. split; (intros [[A B]|[A B]]; [right | left]); split; auto; [destruct x; congruence | rewrite B; reflexivity]. }
  split.
  - intros Hl. apply in_map_iff in Hl. destruct Hl as ([f' b'] & E & Hl). cbn [fst] in E. subst f'. destruct (shown_bytes_in H vcall o _ _ _ _ _ Hs _ _ Hl) as (_ & ft & x & _ & (B1 & (B2 & _) & B3) & _).
    split; [exact B1|]. exists x. split; [apply vget_leads; [exact Ne | exact B2]|]. rewrite Dr in B3. tauto.
  - intros (B & x & D1 & D2 & D3). destruct (C42_tags H vcall st k fs f OK T S Hf) as (d & u & n & opts' & _ & Tu & _).
    destruct (shown_bytes_all H vcall o _ _ _ _ _ Hs f u x Hf) as (b & Hb).
    { split; [exact B|]. split; [split; [apply vget_leads; [exact Ne | exact D1] | exact Tu]|]. rewrite Dr. tauto. }
    apply in_map_iff. exists (f, b). auto.
Qed.

(** ** C19: promoted fields *)
(** Every member value is the encoding of the value at the end of the index path
    of the field, of the type declared there. *)
Theorem C19_promoted_partial H vcall m t w v opts o out st ca q fs0 vs : host_ok H vcall -> sort_ok H ->
  call H m t w v opts o -> marshal_returns H m (Some (t, w)) opts (MOk out) ->
  inner H o (t, is_ptr H t, false, v) (st, ca, q, VStruct vs) -> DocSpec.plain H st ca -> under (h_env H) st = TStruct fs0 ->
  exists k fs l, structFields H k st = Some fs /\ infix (object_text o l) out /\
    forall f b, In (f, Some b) l -> In f fs /\ infix (key_text o (f_name f) ++ b) out /\
      exists d u n topts x, declared H st f d u n topts /\ leads (f_index f) (VStruct vs) (Some x) /\ bytes_of H vcall o (u, ca, quoted H f u, x) b.
Proof.
  intros OK SO C R Hi P U. destruct (struct_written H vcall m t w v opts o out st ca q fs0 vs OK SO C R Hi P U) as (T & k & fs & l & S & Hs & Hx).
  exists k, fs, l. split; [exact S|]. split; [exact Hx|]. intros f b Hl. destruct (shown_bytes_in H vcall o _ _ _ _ _ Hs _ _ Hl) as (Hf & ft & x & b' & (B1 & (B2 & B3) & _) & B4 & B5).
  split; [exact Hf|]. split; [eapply infix_trans; [apply (object_infix o l f b Hl) | exact Hx]|]. destruct (C42_tags H vcall st k fs f OK T S Hf) as (d & u & n & topts & D & Tu & _).
  rewrite Tu in B3. injection B3 as <-. exists d, u, n, topts, x. split; [exact D|]. split; [apply vget_leads; [eapply field_index_nonempty; eauto | exact B2]|].
  destruct B5 as [[E _]|[E _]]; [injection E as ->; exact B4 | discriminate].
Qed.

(** A promoted integer: the decimal number after its key is the value at the end
    of its path. *)
Theorem C19_integer_partial H vcall m t w v opts o out st ca q fs0 vs k fs f ik n d u nm topts : host_ok H vcall -> sort_ok H ->
  call H m t w v opts o -> marshal_returns H m (Some (t, w)) opts (MOk out) ->
  inner H o (t, is_ptr H t, false, v) (st, ca, q, VStruct vs) -> DocSpec.plain H st ca -> under (h_env H) st = TStruct fs0 ->
  structFields H k st = Some fs -> In f fs -> declared H st f d u nm topts -> under (h_env H) u = TInt ik -> DocSpec.plain H u ca -> f_quoted f = false -> f_omitEmpty f = false -> f_omitNil f = false ->
  ~ concealed opts (f_name f) -> leads (f_index f) (VStruct vs) (Some (VInt n)) ->
  exists l, int_lit l n /\ infix (key_text o (f_name f) ++ l) out.
Proof.
  intros OK SO C R Hi P U S Hf D Ui Pi Q O1 O2 Nc Ld.
  destruct (struct_written H vcall m t w v opts o out st ca q fs0 vs OK SO C R Hi P U) as (T & k' & fs' & l & S' & Hs & Hx).
  assert (fs' = fs) by (eapply structFields_det; eauto). subst fs'.
  destruct (C42_tags H vcall st k fs f OK T S Hf) as (d' & u' & n' & topts' & D' & Tu & _). destruct (declared_det H vcall st f _ _ _ _ _ _ _ _ OK T D D') as (_ & <- & _).
  assert (Sh : shown H o st (VStruct vs) f u (VInt n)).
  { split; [rewrite (call_config _ _ _ _ _ _ _ C), denied_concealed; exact Nc|]. split; [split; [apply vget_leads; [eapply field_index_nonempty; eauto | exact Ld] | exact Tu]|].
    intros [[E _]|[E _]]; congruence. }
  destruct (shown_bytes_all H vcall o _ _ _ _ _ Hs f u _ Hf Sh) as (b & Hb). destruct (shown_bytes_in H vcall o _ _ _ _ _ Hs _ _ Hb) as (_ & ft & x & b' & Sh' & B4 & B5).
  destruct (shown_det H o _ _ _ _ _ _ _ Sh Sh') as [<- <-]. destruct B5 as [[-> _]|(_ & (E & _) & _)]; [|congruence].
  exists b'. split; [|eapply infix_trans; [apply (object_infix o l f b' Hb) | exact Hx]].
  destruct B4 as [j Hj]. destruct j as [|j]; [discriminate|]. cbn [venc] in Hj. destruct Pi as [P1 P2]. rewrite P1, P2 in Hj. unfold vkind in Hj. rewrite Ui in Hj.
  unfold quoted in Hj. rewrite Q in Hj. cbn [andb vquote_if] in Hj. injection Hj as <-.
  assert (Rg : int_range ik n).
  { assert (Hh := call_held H vcall OK m t w v opts o C). assert (Hh' := part_held H vcall OK o m _ _ Hh (inner_part H o _ _ Hi)). destruct Hh' as (_ & lc & Hr).
    destruct (field_held H vcall OK m k st fs f (VStruct vs) u (VInt n) ca false lc T S Hf Hr (proj1 (proj2 Sh))) as (_ & lc' & Hr').
    inversion Hr'; subst. congruence. }
  destruct (encode_int_spec ik n [] Rg) as (s & -> & Hs'). exact Hs'.
Qed.
Print Assumptions C18_exact.
