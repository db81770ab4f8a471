(** C66: the fields of an embedded struct are encoded as if they were declared
    in the struct that embeds it. *)
From Coq Require Import Permutation Sorted.
From Verif Require Import Base Utf8 JsonSpec NumberModel NumberProof OptionsModel EscapeModel EscapeProof JsonParse StrictParse CompactModel CompactProof IntModel IntProof TypesModel TypesFacts TagsModel TagsProof CalendarSpec TimeModel TimeProof
  FloatModel FloatProof LeafModel LeafProof MemModel FieldsSpec FieldsModel FieldsSelect FieldsProof FieldsThm InstrModel ExecModel ValueModel ExecMono ExecProof HostFacts VencFacts MarshalThm DocSpec EntriesFacts DocLeaf PartFacts DocProof SafeProof ApiFacts
  PartsThm ShapeThm CallFacts MethodsThm ExampleHost ExampleConst ExampleRead Properties_Options Properties_Strings Properties_Numbers Properties_Fields Properties_Members Properties_Maps Properties_Api Properties_Marshalers Properties_Compose.

(** Lists without repetition in the same strict order are equal when they have
    the same elements. *)
Lemma strict_unique {A} (R : A -> A -> Prop) : (forall x, ~ R x x) -> (forall x y z, R x y -> R y z -> R x z) ->
  forall l l', StronglySorted R l -> StronglySorted R l' -> (forall x, In x l <-> In x l') -> l = l'.
Proof.
  intros Irr Tr. induction l as [|x l IH]; intros [|y l'] S S' I.
  - reflexivity.
  - destruct (proj2 (I y)). left. reflexivity.
  - destruct (proj1 (I x)). left. reflexivity.
  - inversion S as [|? ? S1 S2]; inversion S' as [|? ? S1' S2']; subst. rewrite Forall_forall in S2, S2'.
    assert (x = y) as ->.
    { destruct (proj1 (I x) (or_introl eq_refl)) as [<-|Hx]; [reflexivity|]. destruct (proj2 (I y) (or_introl eq_refl)) as [<-|Hy]; [reflexivity|].
      destruct (Irr x). eapply Tr; [apply S2, Hy | apply S2', Hx]. }
    f_equal. apply IH; [assumption | assumption|]. intros z. split; intros Hz.
    + destruct (proj1 (I z) (or_intror Hz)) as [<-|Q]; [destruct (Irr y); apply S2, Hz | exact Q].
    + destruct (proj2 (I z) (or_intror Hz)) as [<-|Q]; [destruct (Irr y); apply S2', Hz | exact Q].
Qed.

Section Embed.
  Variable H : host.
  Variable vcall : mkind -> typ -> val -> option Z -> bytes + Z.
  Hypothesis OK : host_ok H vcall.
  Notation E := (h_env H).
  Notation here := (candidate_here E (h_letter H) (h_udigit H)).

  (** No two candidates have the same name. *)
  Definition distinct_names (t : typ) : Prop := forall i j name g g', cand H t i name g -> cand H t j name g' -> i = j.

  (** The candidate at an index path, with its type, name and tag options. *)
  Definition found_at (t : typ) (index : list nat) (u : typ) (name : bytes) (tagged : bool) (opts : list bytes) : Prop :=
    exists p sq w i, steps H t p sq w /\ here w i u name tagged opts /\ index = p ++ [i].
  Lemma found_cand t index name tagged : cand H t index name tagged <-> exists u opts, found_at t index u name tagged opts.
  Proof.
    split.
    - intros (p & sq & w & i & u & opts & A & B & C). exists u, opts, p, sq, w, i. auto.
    - intros (u & opts & p & sq & w & i & A & B & C). exists p, sq, w, i, u, opts. auto.
  Qed.

  (** ** Paths, from the front *)
  Lemma path_cons t i b u p sq w : embeds_ H t i b u -> steps H u p sq w -> exists sq', steps H t (i :: p) sq' w.
  Proof.
    intros He. induction 1 as [|p sq w j b' fs u' Hp IH He' Hs].
    - destruct He as (fs & He). exists ([] ++ [(h_off H fs i, b)]). apply (ep_snoc E (h_off H) (h_letter H) (h_udigit H) t [] [] t i b fs u); [constructor | exists fs; exact He | destruct He as (d & v & n & opts & A & _); exact A].
    - destruct IH as [sq' IH]. eexists. change (i :: p ++ [j]) with ((i :: p) ++ [j]). econstructor; eauto.
  Qed.
  Lemma path_uncons t i p sq w : steps H t (i :: p) sq w -> exists b u sq', embeds_ H t i b u /\ steps H u p sq' w.
  Proof.
    remember (i :: p) as q eqn:Q. intros Hp. revert i p Q. induction Hp as [|p0 sq w j b fs u Hp IH He Hs]; intros i p Q; [discriminate|].
    destruct p0 as [|i0 p0]; cbn [app] in Q; injection Q as -> <-.
    - inversion Hp as [|p1 ? ? ? ? ? ? ? ? ? Ep]; subst; [|destruct p1; discriminate]. exists b, u, []. split; [exact He | constructor].
    - destruct (IH i p0 eq_refl) as (b' & u' & sq' & A & B). exists b', u', (sq' ++ [(h_off H fs j, b)]). split; [exact A|]. econstructor; eauto.
  Qed.
  Lemma found_cons t i r u name tagged opts : found_at t (i :: r) u name tagged opts <->
    (r = [] /\ here t i u name tagged opts) \/ exists b w, embeds_ H t i b w /\ found_at w r u name tagged opts.
  Proof.
    split.
    - intros (p & sq & w & j & A & B & C). destruct p as [|i0 p]; cbn [app] in C; injection C as <- ->.
      + inversion A as [|p1 ? ? ? ? ? ? ? ? ? Ep]; subst; [left; auto | destruct p1; discriminate].
      + right. destruct (path_uncons _ _ _ _ _ A) as (b & u' & sq' & A1 & A2). exists b, u'. split; [exact A1|]. exists p, sq', w, j. auto.
    - intros [[-> B]|(b & w & A & p & sq & w' & j & B & C & ->)].
      + exists [], [], t, i. split; [constructor | auto].
      + destruct (path_cons _ _ _ _ _ _ _ A B) as [sq' P]. exists (i :: p), sq', w', j. auto.
  Qed.
  Lemma found_nil t u name tagged opts : ~ found_at t [] u name tagged opts.
  Proof. intros (p & sq & w & i & _ & _ & C). destruct p; discriminate. Qed.

  (** What a field brings depends on its declaration only. *)
  Lemma found_moved t t' fs fs' i i' r u name tagged opts : under E t = TStruct fs -> under E t' = TStruct fs' -> nth_error fs i = nth_error fs' i' ->
    found_at t (i :: r) u name tagged opts -> found_at t' (i' :: r) u name tagged opts.
  Proof.
    intros U U' N. rewrite !found_cons. intros [[-> B]|(b & w & A & B)].
    - left. split; [reflexivity|]. destruct B as (fs0 & d & n & B1 & B2 & B3). unfold struct_of in B1. assert (fs0 = fs) by congruence. subst fs0. exists fs', d, n. split; [exact U'|]. split; [congruence | exact B3].
    - right. exists b, w. split; [|exact B]. destruct A as (fs0 & d & v & n & o & A1 & A2 & A3). unfold struct_of in A1. assert (fs0 = fs) by congruence. subst fs0. exists fs', d, v, n, o. split; [exact U'|]. split; [congruence | exact A3].
  Qed.
  Lemma found_bound t fs i r u name tagged opts : under E t = TStruct fs -> found_at t (i :: r) u name tagged opts -> (i < length fs)%nat.
  Proof.
    intros U. rewrite found_cons. intros [[_ B]|(b & w & A & _)]; apply nth_error_Some.
    - destruct B as (fs0 & d & n & B1 & B2 & _). unfold struct_of in B1. assert (fs0 = fs) by congruence. subst fs0. congruence.
    - destruct A as (fs0 & d & v & n & o & A1 & A2 & _). unfold struct_of in A1. assert (fs0 = fs) by congruence. subst fs0. congruence.
  Qed.
  (** An embedded struct brings its own candidates. *)
  Lemma found_embedded t i b w r u name tagged opts : tyok H t -> embeds_ H t i b w -> (found_at t (i :: r) u name tagged opts <-> found_at w r u name tagged opts).
  Proof.
    intros T He. rewrite found_cons. assert (W := ok_wf _ _ OK). split.
    - assert (He0 := He). apply (edge_iff H W) in He0; [|exact T]. intros [[-> B]|(b' & w' & A & B)].
      + apply (recd_iff H W) in B; [|exact T]. destruct He0 as (d & v & N & K & _). destruct B as (d' & N' & K'). rewrite N in N'. injection N' as <- <-. congruence.
      + apply (edge_iff H W) in A; [|exact T]. destruct (edge_det H _ _ _ _ _ _ He0 A) as [_ <-]. exact B.
    - intros B. right. eauto.
  Qed.
  Lemma found_det t index u name tagged opts u' name' tagged' opts' : tyok H t -> found_at t index u name tagged opts -> found_at t index u' name' tagged' opts' ->
    u = u' /\ name = name' /\ tagged = tagged' /\ opts = opts'.
  Proof.
    intros T (p & sq & w & i & A & B & C) (p' & sq' & w' & i' & A' & B' & C'). rewrite C in C'. apply app_inj_tail in C'. destruct C' as [<- <-]. assert (W := ok_wf _ _ OK).
    destruct (path_det H W t T _ _ _ A _ _ A') as [_ <-]. assert (Tw : tyok H w) by (eapply path_ok; eauto).
    apply (recd_iff H W) in B; [|exact Tw]. apply (recd_iff H W) in B'; [|exact Tw]. destruct B as (d & N & K), B' as (d' & N' & K'). rewrite N in N'. injection N' as <- <-. rewrite K in K'. injection K' as <- <- <-. auto.
  Qed.

  (** ** The fields of a struct without clashes *)
  Definition flags (f : field) (u : typ) (opts : list bytes) : Prop :=
    f_quoted f = (tag_contains opts (lit "string") && isBasicType E (strip_ptr u)) /\
    f_omitEmpty f = tag_contains opts (lit "omitempty") /\ f_omitNil f = tag_contains opts (lit "omitnil").
  Lemma field_found t k fs f : tyok H t -> structFields H k t = Some fs -> In f fs ->
    exists u opts, found_at t (f_index f) u (f_name f) (f_tag f) opts /\ flags f u opts /\ type_by_index H t (f_index f) = Some u.
  Proof.
    intros T S Hf. destruct (structFields_data H (ok_wf _ _ OK) t T k fs f S Hf) as (p & sq & w & i & u & opts & A1 & A2 & A3 & A4 & A5 & A6 & _).
    exists u, opts. split; [exists p, sq, w, i; auto|]. split; [split; auto|].
    destruct A3 as (fsw & d & n & B1 & B2 & _). assert (X := promoted_type H p t sq w i d u A2). unfold fields_of in X. rewrite B1 in X. rewrite A1. apply X; [exact B2 | exists fsw; exact B1].
  Qed.
  (** The fields are those that the documented rule selects: no clash at all, or no struct type
      embedded twice that embeds structs itself. *)
  Definition settled (t : typ) : Prop := distinct_names t \/ single_diamonds H t.
  Lemma distinct_sole t index u name tagged opts : distinct_names t -> found_at t index u name tagged opts -> sole H t index name tagged.
  Proof. intros D F. assert (C : cand H t index name tagged) by (apply found_cand; eauto). split; [exact C|]. intros j g Cj _. eapply D; eauto. Qed.
  Lemma field_winner t k fs f : tyok H t -> settled t -> structFields H k t = Some fs -> In f fs -> sole H t (f_index f) (f_name f) (f_tag f).
  Proof.
    intros T [D|D] S Hf; [|destruct (C18_selection_partial H vcall t OK T) as (k' & fs' & S' & _ & _ & X); rewrite (structFields_det H t k fs k' fs' S S') in Hf; exact (X D f Hf)].
    destruct (field_found t k fs f T S Hf) as (u & opts & F & _). eapply distinct_sole; eauto.
  Qed.
  Lemma winner_field t k fs index name tagged : tyok H t -> structFields H k t = Some fs -> sole H t index name tagged -> exists f, In f fs /\ f_index f = index.
  Proof. intros T S W. destruct (structFields_complete H (ok_wf _ _ OK) t T k fs index name tagged S W) as (f & A & B & _). eauto. Qed.

  (** ** Two structs with the same candidates *)
  (** A candidate for which encodeStruct writes nothing: its name is denied, it
      is behind a nil pointer, or omitempty or omitnil applies. *)
  Definition gone (o : encOpts) (v : val) (index : list nat) (name : bytes) (opts : list bytes) : Prop :=
    denied o name \/ vget index v = Some None \/
    exists x, vget index v = Some (Some x) /\ (tag_contains opts (lit "omitnil") = true /\ vnil x = true \/ tag_contains opts (lit "omitempty") = true /\ vempty x = true).

  (** Without clashes there is nothing to choose. *)
  Lemma distinct_moved t t' (phi : list nat -> option (list nat)) : distinct_names t ->
    (forall b u name g opts, found_at t' b u name g opts -> exists a, found_at t a u name g opts /\ phi a = Some b) -> distinct_names t'.
  Proof.
    intros D From i j name g g' A B. apply found_cand in A, B. destruct A as (u & opts & A), B as (u' & opts' & B). destruct (From _ _ _ _ _ A) as (a & Fa & Pa), (From _ _ _ _ _ B) as (b & Fb & Pb).
    assert (a = b) by (eapply D; apply found_cand; eauto). congruence.
  Qed.
  Lemma distinct_win t t' a b name g u opts u' opts' : distinct_names t -> distinct_names t' -> found_at t a u name g opts -> found_at t' b u' name g opts' -> (sole H t a name g <-> sole H t' b name g).
  Proof. intros D D' F F'. split; intros _; eapply distinct_sole; eauto. Qed.

  (** One of several candidates is chosen alike where the candidates with its
      name correspond. *)
  Lemma sole_moved t t' (phi : list nat -> option (list nat)) name :
    (forall a g, cand H t a name g -> exists b, phi a = Some b /\ cand H t' b name g /\ length b = length a) ->
    (forall b g, cand H t' b name g -> exists a, phi a = Some b /\ cand H t a name g /\ length b = length a) ->
    (forall a a' b, phi a = Some b -> phi a' = Some b -> a = a') ->
    forall a b g, cand H t a name g -> phi a = Some b -> (sole H t a name g <-> sole H t' b name g).
  Proof.
    intros To From Inj a b g Ca Pa. destruct (To a g Ca) as (b0 & Pb & Cb & Lb). assert (b0 = b) by congruence. subst b0. split; intros [_ M]; (split; [assumption|]).
    - intros j g' Cj R. destruct (From j g' Cj) as (a' & Pa' & Ca' & La). assert (a' = a) as -> by (apply (M a' g' Ca'); rewrite <- La, <- Lb; exact R). congruence.
    - intros j g' Cj R. destruct (To j g' Cj) as (b' & Pb' & Cb' & Lb'). assert (b' = b) as -> by (apply (M b' g' Cb'); rewrite Lb, Lb'; exact R). eapply Inj; eauto.
  Qed.

  Lemma run_fields eo n ca s w x y : tyok H s -> vstruct H eo (venc H vcall eo n) n s ca w = VRet x y -> exists k fs, structFields H k s = Some fs /\ vfields H eo (venc H vcall eo n) s ca w fs true [] = VRet x y.
  Proof.
    unfold vstruct. intros Ts. destruct (fields_of H s) eqn:Fo.
    - intros [= <- <-]. destruct (ok_fields _ _ OK s Ts) as (k & fs & S). exists k, fs. split; [exact S|]. destruct fs as [|f fs]; [reflexivity|]. exfalso.
      destruct (field_found s k (f :: fs) f Ts S (or_introl eq_refl)) as (u & o0 & F & _). destruct (f_index f) as [|i r]; [destruct (found_nil _ _ _ _ _ F)|]. apply found_cons in F.
      destruct F as [[_ (fs0 & d & n0 & B1 & B2 & _)]|(b0 & w0 & (fs0 & d & n0 & B0 & o1 & B1 & B2 & _) & _)]; apply struct_fields in B1; rewrite Fo in B1; subst fs0; destruct i; discriminate.
    - destruct (structFields H n s) as [fs|] eqn:S; [|discriminate]. eauto.
  Qed.

  Section Aligned.
    Variables (t t' : typ) (v v' : val) (phi : list nat -> option (list nat)) (eo : encOpts).
    Hypothesis T : tyok H t.
    Hypothesis T' : tyok H t'.
    Hypothesis Se : settled t.
    Hypothesis Se' : settled t'.
    (** Candidates of t are moved to t', or are not shown. *)
    Hypothesis To : forall a u name g opts, found_at t a u name g opts ->
      match phi a with Some b => found_at t' b u name g opts /\ vget a v = vget b v' | None => gone eo v a name opts end.
    Hypothesis From : forall b u name g opts, found_at t' b u name g opts -> exists a, found_at t a u name g opts /\ phi a = Some b.
    Hypothesis Mono : forall a u name g opts b u' name' g' opts' a' b', found_at t a u name g opts -> found_at t b u' name' g' opts' ->
      phi a = Some a' -> phi b = Some b' -> index_less a b = true -> index_less a' b' = true.

    Hypothesis Win : forall a b u name g opts, found_at t a u name g opts -> phi a = Some b -> (sole H t a name g <-> sole H t' b name g).

    Definition same_field (f f' : field) : Prop :=
      f_name f = f_name f' /\ f_omitNil f = f_omitNil f' /\ f_omitEmpty f = f_omitEmpty f' /\ f_quoted f = f_quoted f' /\
      type_by_index H t (f_index f) = type_by_index H t' (f_index f') /\ vget (f_index f) v = vget (f_index f') v'.
    Inductive aligned : list field -> list field -> Prop :=
    | al_nil : aligned [] []
    | al_gone f fs fs' : hidden H eo t v f -> aligned fs fs' -> aligned (f :: fs) fs'
    | al_both f f' fs fs' : same_field f f' -> aligned fs fs' -> aligned (f :: fs) (f' :: fs').

    Definition moved (l : list (list nat)) : list (list nat) := flat_map (fun a => match phi a with Some b => [b] | None => [] end) l.
    Lemma moved_In l b : In b (moved l) <-> exists a, In a l /\ phi a = Some b.
    Proof.
      unfold moved. rewrite in_flat_map. split; intros (a & Ha & Hb); exists a; (split; [exact Ha|]).
      - destruct (phi a); [destruct Hb as [<-|[]]; reflexivity | destruct Hb].
      - rewrite Hb. left. reflexivity.
    Qed.
    Lemma moved_sorted l : (forall a, In a l -> exists u name g opts, found_at t a u name g opts) -> StronglySorted (fun a b => index_less a b = true) l -> StronglySorted (fun a b => index_less a b = true) (moved l).
    Proof.
      induction l as [|a l IH]; intros F S; [constructor|]. inversion S as [|? ? S1 S2]; subst. unfold moved. cbn [flat_map]. fold (moved l).
      assert (IH' := IH (fun x Hx => F x (or_intror Hx)) S1). destruct (phi a) as [a'|] eqn:Pa; [|exact IH']. cbn [app]. constructor; [exact IH'|]. apply Forall_forall. intros b' Hb. apply moved_In in Hb. destruct Hb as (b & Hb & Pb).
      rewrite Forall_forall in S2. destruct (F a (or_introl eq_refl)) as (u & n & g & o & Fa), (F b (or_intror Hb)) as (u' & n' & g' & o' & Fb). exact (Mono _ _ _ _ _ _ _ _ _ _ _ _ Fa Fb Pa Pb (S2 b Hb)).
    Qed.

    Lemma fields_align k k' fs fs' : structFields H k t = Some fs -> structFields H k' t' = Some fs' -> aligned fs fs'.
    Proof.
      intros S S'. assert (W := ok_wf _ _ OK). destruct (structFields_sorted H W t T k fs S) as [O _]. destruct (structFields_sorted H W t' T' k' fs' S') as [O' _]. unfold index_sorted in O, O'.
      assert (I : moved (map f_index fs) = map f_index fs').
      { apply (strict_unique (fun a b => index_less a b = true)).
        - intros x C. rewrite index_less_irrefl in C. discriminate.
        - apply index_less_trans.
        - apply moved_sorted; [|apply StronglySorted_map; exact O]. intros a Ha. apply in_map_iff in Ha. destruct Ha as (f & <- & Hf). destruct (field_found t k fs f T S Hf) as (u & o & F & _). eauto.
        - apply StronglySorted_map. exact O'.
        - intros b. rewrite moved_In. split.
          + intros (a & Ha & Pa). apply in_map_iff in Ha. destruct Ha as (f & <- & Hf). destruct (field_found t k fs f T S Hf) as (u & o & F & _). assert (Wf := field_winner t k fs f T Se S Hf).
            apply (Win _ _ _ _ _ _ F Pa) in Wf. destruct (winner_field t' k' fs' _ _ _ T' S' Wf) as (f' & Hf' & <-). apply List.in_map. exact Hf'.
          + intros Hb. apply in_map_iff in Hb. destruct Hb as (f' & <- & Hf'). destruct (field_found t' k' fs' f' T' S' Hf') as (u & o & F & _). destruct (From _ _ _ _ _ F) as (a & Fa & Pa). exists a. split; [|exact Pa].
            assert (Wf := field_winner t' k' fs' f' T' Se' S' Hf'). apply (Win _ _ _ _ _ _ Fa Pa) in Wf. destruct (winner_field t k fs _ _ _ T S Wf) as (f & Hf & <-). apply List.in_map. exact Hf. }
      assert (G : forall l l', (forall f, In f l -> In f fs) -> (forall f, In f l' -> In f fs') -> moved (map f_index l) = map f_index l' -> aligned l l').
      { induction l as [|f l IH]; intros l' Hl Hl' M.
        - destruct l'; [constructor | discriminate].
        - cbn [map] in M. unfold moved in M. cbn [flat_map] in M. fold (moved (map f_index l)) in M. destruct (field_found t k fs f T S (Hl f (or_introl eq_refl))) as (u & os & F & Fl & Ty). assert (X := To _ _ _ _ _ F).
          destruct (phi (f_index f)) as [b|]; cbn [app] in M.
          + destruct l' as [|f' l']; [discriminate|]. cbn [map] in M. injection M as -> M. apply al_both; [|apply IH; [intros x Hx; apply Hl; right; exact Hx | intros x Hx; apply Hl'; right; exact Hx | exact M]].
            destruct (field_found t' k' fs' f' T' S' (Hl' f' (or_introl eq_refl))) as (u' & o' & F' & Fl' & Ty'). destruct X as [X1 X2].
            destruct (found_det t' _ _ _ _ _ _ _ _ _ T' X1 F') as (-> & N & _ & ->). destruct Fl as (A1 & A2 & A3), Fl' as (B1 & B2 & B3). repeat split; congruence.
          + apply al_gone.
            { destruct X as [X|[X|(x & X & Y)]]; [left; exact X | right; left; exact X|]. right. right. exists u, x. split; [split; [exact X | exact Ty]|]. destruct Fl as (_ & Fe & Fn). apply dropped_spec. rewrite Fe, Fn.
              destruct Y as [[-> ->]|[-> ->]]; [reflexivity | apply orb_true_r]. }
            apply IH; [intros x Hx; apply Hl; right; exact Hx | exact Hl' | exact M]. }
      apply G; auto.
    Qed.

    Lemma vfields_hidden rec ca f fs first out b e : hidden H eo t v f -> vfields H eo rec t ca v (f :: fs) first out = VRet b e -> vfields H eo rec t ca v fs first out = VRet b e.
    Proof.
      cbn [vfields]. intros Hh Hr. destruct (isDeniedField eo (f_name f)) eqn:Dn; [exact Hr|]. destruct (negb (right_seq H t f)); [discriminate|].
      destruct Hh as [Hh|[Hh|(ft & x & [S2 S3] & S4)]]; [apply isDeniedField_spec in Hh; congruence | rewrite Hh in Hr; exact Hr|]. rewrite S2, S3 in Hr.
      apply dropped_spec, orb_true_iff in S4. destruct S4 as [S4|S4]; rewrite S4 in Hr; [exact Hr|]. destruct (f_omitNil f && vnil x); exact Hr.
    Qed.
    Lemma vfields_aligned rec ca fs fs' : aligned fs fs' -> forall first out b e b' e',
      vfields H eo rec t ca v fs first out = VRet b e -> vfields H eo rec t' ca v' fs' first out = VRet b' e' -> b = b' /\ e = e'.
    Proof.
      induction 1 as [|f fs fs' N A IH|f f' fs fs' (S1 & S2 & S3 & S4 & S5 & S6) A IH]; intros first out b e b' e' Hr Hr'.
      - cbn [vfields] in Hr, Hr'. rewrite Hr in Hr'. injection Hr' as <- <-. auto.
      - eapply IH; [eapply vfields_hidden; eauto | exact Hr'].
      - cbn [vfields] in Hr, Hr'. rewrite <- S1 in Hr'. destruct (isDeniedField eo (f_name f)); [eapply IH; eauto|]. destruct (negb (right_seq H t f)); [discriminate|]. destruct (negb (right_seq H t' f')); [discriminate|].
        rewrite <- S2, <- S3, <- S4, <- S5, <- S6 in Hr'. destruct (vget (f_index f) v) as [[x|]|]; [|eapply IH; eauto | discriminate]. destruct (type_by_index H t (f_index f)) as [ft|]; [|discriminate].
        destruct (f_omitNil f && vnil x); [eapply IH; eauto|]. destruct (f_omitEmpty f && vempty x); [eapply IH; eauto|]. cbv zeta in Hr, Hr'.
        destruct (rec ft ca _ x) as [y [z|]| |]; try discriminate; [injection Hr as <- <-; injection Hr' as <- <-; auto | eapply IH; eauto].
    Qed.

    Lemma struct_results n ca b e b' e' : vstruct H eo (venc H vcall eo n) n t ca v = VRet b e -> vstruct H eo (venc H vcall eo n) n t' ca v' = VRet b' e' -> b = b' /\ e = e'.
    Proof.
      intros Hr Hr'. destruct (run_fields eo n ca t v _ _ T Hr) as (k & fs & S & V), (run_fields eo n ca t' v' _ _ T' Hr') as (k' & fs' & S' & V'). eapply vfields_aligned; [eapply fields_align; eauto | exact V | exact V'].
    Qed.
  End Aligned.

  (** ** One embedded struct *)
  (** Field n is replaced by k fields. *)
  Definition flat (n k : nat) (a : list nat) : option (list nat) :=
    match a with
    | [] => None
    | i :: r =>
      if (i <? n)%nat then Some (i :: r)
      else if (i =? n)%nat then match r with j :: r' => Some ((n + j)%nat :: r') | [] => None end
      else Some ((i - 1 + k)%nat :: r)
    end.
  Definition cut (n : nat) (a : list nat) : option (list nat) :=
    match a with
    | [] => None
    | i :: r => if (i =? n)%nat then None else flat n 0 a
    end.

  Lemma nth_front {A} (l a c : list A) i : (i < length l)%nat -> nth_error (l ++ a) i = nth_error (l ++ c) i.
  Proof. intros L. rewrite (nth_error_app1 l a L), (nth_error_app1 l c L). reflexivity. Qed.
  Lemma nth_middle {A} (l a c : list A) j : (j < length a)%nat -> nth_error (l ++ a ++ c) (length l + j) = nth_error a j.
  Proof. intros L. rewrite (nth_error_app2 l) by lia. replace (length l + j - length l)%nat with j by lia. apply nth_error_app1. exact L. Qed.
  Lemma vget_moved i i' r vs vs' : nth_error vs i = nth_error vs' i' -> vget (i :: r) (VStruct vs) = vget (i' :: r) (VStruct vs').
  Proof. intros N. cbn [vget]. rewrite N. reflexivity. Qed.

  Lemma struct_pair m m' t t' w w' vs vs' fs fs' opts o : call H m t w (VStruct vs) opts o -> call H m' t' w' (VStruct vs') opts o ->
    DocSpec.plain H t false -> DocSpec.plain H t' false -> under E t = TStruct fs -> under E t' = TStruct fs' ->
    tyok H t /\ tyok H t' /\ exists n out err out' err',
      vstruct H o (venc H vcall o n) n t false (VStruct vs) = VRet out err /\ vstruct H o (venc H vcall o n) n t' false (VStruct vs') = VRet out' err' /\
      (forall r, marshal_returns H m (Some (t, w)) opts r <-> r = outcome out err) /\ (forall r, marshal_returns H m' (Some (t', w')) opts r <-> r = outcome out' err').
  Proof.
    intros C C' [P1 P2] [P1' P2'] U U'.
    assert (T : tyok H t) by exact (call_part_tok H vcall OK m t w _ opts o C _ (part_refl H o _)).
    assert (T' : tyok H t') by exact (call_part_tok H vcall OK m' t' w' _ opts o C' _ (part_refl H o _)).
    split; [exact T|]. split; [exact T'|].
    destruct (call_returns H vcall OK m t w _ opts o C) as (out & err & B1 & B2).
    destruct (call_returns H vcall OK m' t' w' _ opts o C') as (out' & err' & B1' & B2').
    assert (Ip : is_ptr H t = false) by (unfold is_ptr; rewrite U; reflexivity). assert (Ip' : is_ptr H t' = false) by (unfold is_ptr; rewrite U'; reflexivity).
    assert (V : exists n, venc H vcall o (S n) t false false (VStruct vs) = VRet out err /\ venc H vcall o (S n) t' false false (VStruct vs') = VRet out' err').
    { apply encodes_inv in B1, B1'. rewrite Ip in B1. rewrite Ip' in B1'. destruct B1 as [n Hn]. destruct B1' as [k Hk]. exists (Nat.max n k).
      rewrite (venc_mono H vcall o n (S (Nat.max n k)) t false false _ ltac:(lia) ltac:(rewrite Hn; discriminate)).
      rewrite (venc_mono H vcall o k (S (Nat.max n k)) t' false false _ ltac:(lia) ltac:(rewrite Hk; discriminate)). auto. }
    destruct V as (n & V1 & V2). cbn [venc] in V1, V2. rewrite P1, P2 in V1. rewrite P1', P2' in V2. unfold vkind in V1, V2. rewrite U in V1. rewrite U' in V2.
    exists n, out, err, out', err'. auto.
  Qed.
  Lemma struct_same m m' t t' w w' vs vs' fs fs' opts o : call H m t w (VStruct vs) opts o -> call H m' t' w' (VStruct vs') opts o ->
    DocSpec.plain H t false -> DocSpec.plain H t' false -> under E t = TStruct fs -> under E t' = TStruct fs' ->
    (tyok H t -> tyok H t' -> forall n b e b' e', vstruct H o (venc H vcall o n) n t false (VStruct vs) = VRet b e -> vstruct H o (venc H vcall o n) n t' false (VStruct vs') = VRet b' e' -> b = b' /\ e = e') ->
    forall r, marshal_returns H m (Some (t, w)) opts r <-> marshal_returns H m' (Some (t', w')) opts r.
  Proof.
    intros C C' P P' U U' Same. destruct (struct_pair m m' t t' w w' vs vs' fs fs' opts o C C' P P' U U') as (T & T' & n & out & err & out' & err' & V1 & V2 & B2 & B2').
    destruct (Same T T' n _ _ _ _ V1 V2) as [<- <-]. intros r. rewrite B2, B2'. reflexivity.
  Qed.

  Lemma less_cons i j a c : index_less (i :: a) (j :: c) = true <-> (i < j)%nat \/ i = j /\ index_less a c = true.
  Proof. cbn [index_less]. destruct (i =? j)%nat eqn:Q; [apply Nat.eqb_eq in Q | apply Nat.eqb_neq in Q; rewrite Nat.ltb_lt]; intuition lia. Qed.

  (** ** One field that is not shown *)
  Section Removed.
    Variables (t t' : typ) (fs1 fs2 : list (fdecl * typ)) (x : fdecl * typ).
    Hypothesis Ut : under E t = TStruct (fs1 ++ x :: fs2).
    Hypothesis Ut' : under E t' = TStruct (fs1 ++ fs2).

    Notation n := (length fs1).

    Lemma cut_nth A (l1 : list A) z l2 i : length l1 = n -> (n < i)%nat -> nth_error (l1 ++ z :: l2) i = nth_error (l1 ++ l2) (i - 1).
    Proof. intros Q1 Q2. rewrite (nth_error_app2 l1 (z :: l2)) by lia. rewrite (nth_error_app2 l1 l2) by lia. replace (i - length l1)%nat with (S (i - 1 - length l1))%nat by lia. reflexivity. Qed.
    Lemma cut_found a b : cut n a = Some b -> length b = length a /\ forall u name g os, found_at t a u name g os <-> found_at t' b u name g os.
    Proof.
      destruct a as [|i r]; [discriminate|]. cbn [cut flat]. destruct (i =? n)%nat eqn:I2; [discriminate|]. apply Nat.eqb_neq in I2.
      destruct (i <? n)%nat eqn:I1; [apply Nat.ltb_lt in I1 | apply Nat.ltb_ge in I1]; intros [= <-]; (split; [reflexivity|]); intros u name g os.
      - split; intros F; [eapply found_moved; [exact Ut | exact Ut' | apply nth_front, I1 | exact F] | eapply found_moved; [exact Ut' | exact Ut | apply nth_front, I1 | exact F]].
      - rewrite Nat.add_0_r. assert (N := cut_nth _ fs1 x fs2 i eq_refl ltac:(lia)). split; intros F; [eapply found_moved; [exact Ut | exact Ut' | exact N | exact F] | eapply found_moved; [exact Ut' | exact Ut | symmetry; exact N | exact F]].
    Qed.
    Lemma cut_onto i r : exists a, cut n a = Some (i :: r).
    Proof.
      destruct (Nat.lt_ge_cases i n) as [I1|I1]; [exists (i :: r) | exists (S i :: r)]; cbn [cut flat].
      - destruct (i =? n)%nat eqn:Q1; [lia|]. destruct (i <? n)%nat eqn:Q; [reflexivity | lia].
      - destruct (S i =? n)%nat eqn:Q1; [lia|]. destruct (S i <? n)%nat eqn:Q; [lia|]. do 2 f_equal. lia.
    Qed.
    Lemma cut_inj a a' b : cut n a = Some b -> cut n a' = Some b -> a = a'.
    Proof.
      destruct a as [|i r], a' as [|i' r']; try discriminate. cbn [cut flat]. destruct (i =? n)%nat eqn:I2; [discriminate|]. destruct (i' =? n)%nat eqn:J2; [discriminate|].
      rewrite !Nat.eqb_neq in *. destruct (i <? n)%nat eqn:I1, (i' <? n)%nat eqn:J1; rewrite ?Nat.ltb_lt, ?Nat.ltb_ge in *; intros [= <-] [= A <-]; f_equal; lia.
    Qed.

    Hypothesis Se : settled t.
    Hypothesis Se' : settled t'.
    Variables (m m' : mem) (w w' : Z) (vs1 vs2 : list val) (y : val) (opts : list (option option_)) (o : encOpts).
    Hypothesis L1 : length vs1 = length fs1.

    (** What a field that shows nothing holds does not matter, nor that it is
        declared: neither the bytes nor the error change without it.  The names it
        brings are brought by no other field. *)
    Theorem C68_removed : (forall r name g j g', cand H t (n :: r) name g -> cand H t j name g' -> exists s, j = n :: s) ->
      (forall r u name g os, found_at t (n :: r) u name g os -> gone o (VStruct (vs1 ++ y :: vs2)) (n :: r) name os) ->
      call H m t w (VStruct (vs1 ++ y :: vs2)) opts o -> call H m' t' w' (VStruct (vs1 ++ vs2)) opts o -> DocSpec.plain H t false -> DocSpec.plain H t' false ->
      forall r, marshal_returns H m (Some (t, w)) opts r <-> marshal_returns H m' (Some (t', w')) opts r.
    Proof.
      intros Al G C C' P P'. apply (struct_same m m' t t' w w' _ _ _ _ opts o C C' P P' Ut Ut'). intros T T' k.
      apply (struct_results t t' _ _ (cut n) o T T' Se Se').
      - intros a u0 name g o0 F. destruct (cut n a) as [b|] eqn:Cu.
        + split; [apply (proj2 (cut_found a b Cu)); exact F|]. destruct a as [|i r]; [discriminate|]. cbn [cut flat] in Cu. destruct (i =? n)%nat eqn:I2; [discriminate|]. apply Nat.eqb_neq in I2.
          destruct (i <? n)%nat eqn:I1; [apply Nat.ltb_lt in I1 | apply Nat.ltb_ge in I1]; injection Cu as <-; apply vget_moved.
          * apply nth_front. rewrite L1. exact I1.
          * rewrite Nat.add_0_r. apply cut_nth; [exact L1 | lia].
        + destruct a as [|i r]; [destruct (found_nil _ _ _ _ _ F)|]. cbn [cut flat] in Cu. destruct (i =? n)%nat eqn:I2; [|destruct (i <? n)%nat; discriminate]. apply Nat.eqb_eq in I2. subst i. apply (G _ _ _ _ _ F).
      - intros [|i r] u0 name g o0 F; [destruct (found_nil _ _ _ _ _ F)|]. destruct (cut_onto i r) as [a Pa]. exists a. split; [apply (proj2 (cut_found _ _ Pa)), F | exact Pa].
      - intros [|i r] u0 name g o0 [|j s] u1 name' g' o1 a' b' F F' Pa Pb Ls; try discriminate. apply less_cons in Ls. cbn [cut flat] in Pa, Pb.
        destruct (i =? n)%nat eqn:I2; [discriminate|]. destruct (j =? n)%nat eqn:J2; [discriminate|].
        destruct (i <? n)%nat eqn:I1; injection Pa as <-; destruct (j <? n)%nat eqn:J1; injection Pb as <-; apply less_cons; rewrite ?Nat.ltb_lt, ?Nat.ltb_ge, ?Nat.eqb_neq in *;
          destruct Ls as [Ls|[<- Ls]]; try lia; try (left; lia); right; auto.
      - intros a b u name g os F Pa. assert (Ca : cand H t a name g) by (apply found_cand; eauto). apply (sole_moved t t' (cut n) name); [| |apply cut_inj | exact Ca | exact Pa].
        + intros a1 g1 C1. destruct (cut n a1) as [b1|] eqn:P1.
          * exists b1. destruct (cut_found _ _ P1) as [Q1 Q2]. apply found_cand in C1. destruct C1 as (u1 & os1 & F1). split; [reflexivity|]. split; [apply found_cand; exists u1, os1; apply Q2, F1 | exact Q1].
          * exfalso. destruct a1 as [|i r]; [apply found_cand in C1; destruct C1 as (u1 & os1 & F1); destruct (found_nil _ _ _ _ _ F1)|]. cbn [cut flat] in P1. destruct (i =? n)%nat eqn:I2; [|destruct (i <? n)%nat; discriminate].
            apply Nat.eqb_eq in I2. subst i. destruct (Al r name g1 a g C1 Ca) as [s ->]. cbn [cut] in Pa. rewrite Nat.eqb_refl in Pa. discriminate.
        + intros b1 g1 C1. apply found_cand in C1. destruct C1 as (u1 & os1 & F1). destruct b1 as [|i r]; [destruct (found_nil _ _ _ _ _ F1)|]. destruct (cut_onto i r) as [a1 P1]. destruct (cut_found _ _ P1) as [Q1 Q2].
          exists a1. split; [exact P1|]. split; [apply found_cand; exists u1, os1; apply Q2, F1 | exact Q1].
    Qed.

    Lemma the_field fs : struct_of E t fs -> nth_error fs (length fs1) = Some x.
    Proof. unfold struct_of. intros S. assert (fs = fs1 ++ x :: fs2) as -> by congruence. rewrite nth_error_app2, Nat.sub_diag by lia. reflexivity. Qed.

    (** A field that takes no part: unexported and not an embedded struct, or with
        the tag "-". *)
    Theorem C68_skipped : ~ takes_part E (fst x) (snd x) ->
      call H m t w (VStruct (vs1 ++ y :: vs2)) opts o -> call H m' t' w' (VStruct (vs1 ++ vs2)) opts o -> DocSpec.plain H t false -> DocSpec.plain H t' false ->
      forall r, marshal_returns H m (Some (t, w)) opts r <-> marshal_returns H m' (Some (t', w')) opts r.
    Proof.
      intros N. assert (Z : forall r u name g os, ~ found_at t (n :: r) u name g os).
      { intros r u name g os F. apply N. apply found_cons in F. destruct F as [[_ (fs & d & nm & B1 & B2 & B3 & _)]|(b & w0 & (fs & d & u0 & nm & os' & B1 & B2 & B3 & _) & _)];
          rewrite (the_field fs B1) in B2; injection B2 as ->; exact B3. }
      apply C68_removed; [|intros r u name g os F; destruct (Z _ _ _ _ _ F)]. intros r name g j g' Cn _. apply found_cand in Cn. destruct Cn as (u & os & F). destruct (Z _ _ _ _ _ F).
    Qed.

    (** A field whose name the lists conceal, or whose value omitempty or omitnil
        drops, and no other field with its name. *)
    Theorem C68_hidden name g os : here t n (snd x) name g os -> (forall j g', cand H t j name g' -> j = [n]) ->
      concealed opts name \/ (In (lit "omitempty") os /\ vempty y = true) \/ (In (lit "omitnil") os /\ vnil y = true) ->
      call H m t w (VStruct (vs1 ++ y :: vs2)) opts o -> call H m' t' w' (VStruct (vs1 ++ vs2)) opts o -> DocSpec.plain H t false -> DocSpec.plain H t' false ->
      forall r, marshal_returns H m (Some (t, w)) opts r <-> marshal_returns H m' (Some (t', w')) opts r.
    Proof.
      intros Hh Al G C. assert (T : tyok H t) by exact (call_part_tok H vcall OK m t w _ opts o C _ (part_refl H o _)). revert C. assert (W := ok_wf _ _ OK).
      assert (F0 : found_at t [n] (snd x) name g os) by (apply found_cons; left; auto).
      assert (Only : forall r u name' g' os', found_at t (n :: r) u name' g' os' -> r = [] /\ name' = name /\ os' = os).
      { intros r u name' g' os' F. assert (F' := F). apply found_cons in F'.
        assert (r = []) as ->.
        { destruct F' as [[-> _]|(b & w0 & A & _)]; [reflexivity|]. exfalso. apply (recd_iff H W) in Hh; [|exact T]. apply (edge_iff H W) in A; [|exact T].
          destruct Hh as (d & N & K), A as (d' & v & N' & K' & _). rewrite N in N'. injection N' as <- <-. congruence. }
        destruct (found_det t _ _ _ _ _ _ _ _ _ T F0 F) as (_ & <- & _ & <-). auto. }
      intros C. apply C68_removed; [| |exact C].
      { intros r name' g1 j g' C1 C2. apply found_cand in C1. destruct C1 as (u1 & os1 & F1). destruct (Only _ _ _ _ _ F1) as (_ & -> & _). exists []. eapply Al; eauto. }
      intros r u name' g' os' F. destruct (Only _ _ _ _ _ F) as (-> & -> & ->).
      assert (V : vget [n] (VStruct (vs1 ++ y :: vs2)) = Some (Some y)).
      { cbn [vget]. rewrite nth_error_app2, L1, Nat.sub_diag by lia. reflexivity. }
      destruct G as [G|[[G1 G2]|[G1 G2]]].
      - left. rewrite (call_config _ _ (c_opts _ _ _ _ _ _ _ C)). apply denied_concealed, G.
      - right. right. exists y. split; [exact V|]. right. rewrite tag_contains_spec. auto.
      - right. right. exists y. split; [exact V|]. left. rewrite tag_contains_spec. auto.
    Qed.
  End Removed.

  Section One.
    Variables (t t' u : typ) (fs1 fs2 gs : list (fdecl * typ)) (x : fdecl * typ) (b : bool).
    Hypothesis Ut : under E t = TStruct (fs1 ++ x :: fs2).
    Hypothesis He : embeds_ H t (length fs1) b u.
    Hypothesis Uu : under E u = TStruct gs.
    Hypothesis D : distinct_names t.
    Variables (m m' : mem) (w w' : Z) (vs1 vs2 ws : list val) (y : val) (opts : list (option option_)) (o : encOpts).
    Hypothesis L1 : length vs1 = length fs1.


    (** The fields of the embedded struct in place of it. *)
    Theorem C66_embedded : under E t' = TStruct (fs1 ++ gs ++ fs2) -> length ws = length gs -> y = VStruct ws \/ y = VPtr (VStruct ws) ->
      call H m t w (VStruct (vs1 ++ y :: vs2)) opts o -> call H m' t' w' (VStruct (vs1 ++ ws ++ vs2)) opts o -> DocSpec.plain H t false -> DocSpec.plain H t' false ->
      forall r, marshal_returns H m (Some (t, w)) opts r <-> marshal_returns H m' (Some (t', w')) opts r.
    Proof.
      intros Ut' L2 Hy C C' P P'. apply (struct_same m m' t t' w w' _ _ _ _ opts o C C' P P' Ut Ut'). intros T T' n.
      set (phi := flat (length fs1) (length gs)).
      assert (From : forall b0 u0 name g o0, found_at t' b0 u0 name g o0 -> exists a, found_at t a u0 name g o0 /\ phi a = Some b0).
      { intros [|i r] u0 name g o0 F; [destruct (found_nil _ _ _ _ _ F)|]. assert (Bd := found_bound _ _ _ _ _ _ _ _ Ut' F). rewrite !app_length in Bd.
        destruct (Nat.lt_ge_cases i (length fs1)) as [I1|I1]; [|destruct (Nat.lt_ge_cases i (length fs1 + length gs)) as [I2|I2]].
        + exists (i :: r). split; [eapply found_moved; [exact Ut' | exact Ut | apply nth_front, I1 | exact F]|]. unfold phi; cbn [flat]. destruct (i <? length fs1)%nat eqn:Q; [reflexivity | lia].
        + exists (length fs1 :: (i - length fs1)%nat :: r). split.
          * apply (found_embedded t (length fs1) b u _ u0 name g o0 T He). eapply found_moved; [exact Ut' | exact Uu | | exact F]. replace i with (length fs1 + (i - length fs1))%nat at 1 by lia. apply nth_middle. lia.
          * unfold phi; cbn [flat]. rewrite Nat.ltb_irrefl, Nat.eqb_refl. do 2 f_equal. lia.
        + exists ((i - length gs + 1)%nat :: r). split.
          * eapply found_moved; [exact Ut' | exact Ut | | exact F]. rewrite (nth_error_app2 fs1 (gs ++ fs2)) by lia. rewrite (nth_error_app2 gs fs2) by lia. rewrite nth_error_app2 by lia.
            replace (i - length gs + 1 - length fs1)%nat with (S (i - length fs1 - length gs))%nat by lia. reflexivity.
          * unfold phi; cbn [flat]. destruct (i - length gs + 1 <? length fs1)%nat eqn:Q1; [lia|]. destruct (i - length gs + 1 =? length fs1)%nat eqn:Q2; [lia|]. do 2 f_equal. lia. }
      assert (To : forall a u0 name g o0, found_at t a u0 name g o0 -> match phi a with Some b0 => found_at t' b0 u0 name g o0 /\ vget a (VStruct (vs1 ++ y :: vs2)) = vget b0 (VStruct (vs1 ++ ws ++ vs2)) | None => gone o (VStruct (vs1 ++ y :: vs2)) a name o0 end).
      { intros [|i r] u0 name g o0 F; [destruct (found_nil _ _ _ _ _ F)|]. unfold phi. cbn [flat]. assert (Bd := found_bound _ _ _ _ _ _ _ _ Ut F). rewrite app_length in Bd. cbn [length] in Bd.
        destruct (i <? length fs1)%nat eqn:I1; [apply Nat.ltb_lt in I1 | apply Nat.ltb_ge in I1; destruct (i =? length fs1)%nat eqn:I2; [apply Nat.eqb_eq in I2; subst i | apply Nat.eqb_neq in I2]].
        + split; [eapply found_moved; [exact Ut | exact Ut' | apply nth_front, I1 | exact F]|]. apply vget_moved, nth_front. rewrite L1. exact I1.
        + apply (found_embedded t (length fs1) b u r u0 name g o0 T He) in F. destruct r as [|j r]; [destruct (found_nil _ _ _ _ _ F)|]. assert (Bj := found_bound _ _ _ _ _ _ _ _ Uu F).
          split; [eapply found_moved; [exact Uu | exact Ut' | symmetry; apply nth_middle; exact Bj | exact F]|].
          assert (N : nth_error (vs1 ++ y :: vs2) (length fs1) = Some y) by (rewrite nth_error_app2, L1, Nat.sub_diag by lia; reflexivity).
          transitivity (vget (j :: r) (VStruct ws)); [|apply vget_moved; rewrite <- L1; symmetry; apply nth_middle; rewrite L2; exact Bj].
          cbn [vget]. rewrite N. destruct Hy as [-> | ->]; reflexivity.
        + assert (Q : forall A (l1 : list A) z l2 k, length l1 = length fs1 -> length k = length gs -> nth_error (l1 ++ z :: l2) i = nth_error (l1 ++ k ++ l2) (i - 1 + length gs)).
          { intros A l1 z l2 k Q1 Q2. rewrite nth_error_app2 by lia. rewrite nth_error_app2 by lia. rewrite nth_error_app2 by lia. replace (i - length l1)%nat with (S (i - 1 - length fs1))%nat by lia. cbn [nth_error]. f_equal. lia. }
          split; [eapply found_moved; [exact Ut | exact Ut' | apply Q; reflexivity | exact F]|]. apply vget_moved. apply Q; assumption. }
      apply (struct_results t t' _ _ phi o T T' (or_introl D) (or_introl (distinct_moved t t' phi D From)) To From).
      - intros [|i r] u0 name g o0 [|j s] u1 name' g' o1 a' b' F F' Pa Pb Ls; try discriminate. apply less_cons in Ls. unfold phi in Pa, Pb. cbn [flat] in Pa, Pb.
        destruct (i <? length fs1)%nat eqn:I1; [injection Pa as <- | destruct (i =? length fs1)%nat eqn:I2; [destruct r as [|i' r]; [discriminate|]; injection Pa as <-; apply Nat.eqb_eq in I2; subst i | injection Pa as <-]];
        (destruct (j <? length fs1)%nat eqn:J1; [injection Pb as <- | destruct (j =? length fs1)%nat eqn:J2; [destruct s as [|j' s]; [discriminate|]; injection Pb as <-; apply Nat.eqb_eq in J2; subst j | injection Pb as <-]]); apply less_cons.
        all: rewrite ?Nat.ltb_lt, ?Nat.ltb_ge, ?Nat.eqb_neq in *.
        all: try (destruct Ls as [Ls|[Ls Ls']]; [left | ]; lia).
        all: try (destruct Ls as [Ls|[<- Ls']]; [left; lia | right; split; [reflexivity | exact Ls']]).
        + apply (found_embedded t (length fs1) b u _ u0 name g o0 T He) in F. apply (found_embedded t (length fs1) b u _ u1 name' g' o1 T He) in F'. destruct Ls as [Ls|[_ Ls]]; [lia|]. apply less_cons in Ls. destruct Ls as [Ls|[-> Ls]]; [left; lia | right; auto].
        + left. apply (found_embedded t (length fs1) b u _ u0 name g o0 T He) in F. assert (Bj := found_bound _ _ _ _ _ _ _ _ Uu F). lia.
      - intros a b0 u0 name g os F Pa. assert (X := To _ _ _ _ _ F). rewrite Pa in X. eapply distinct_win; [exact D | exact (distinct_moved t t' phi D From) | exact F | exact (proj1 X)].
    Qed.

    (** A nil embedded pointer: as if there were no such field. *)
    Theorem C66_nil : under E t' = TStruct (fs1 ++ fs2) -> call H m t w (VStruct (vs1 ++ VNil :: vs2)) opts o -> call H m' t' w' (VStruct (vs1 ++ vs2)) opts o ->
      DocSpec.plain H t false -> DocSpec.plain H t' false ->
      forall r, marshal_returns H m (Some (t, w)) opts r <-> marshal_returns H m' (Some (t', w')) opts r.
    Proof.
      intros Ut' C C' P P'. assert (T : tyok H t) by exact (call_part_tok H vcall OK m t w _ opts o C _ (part_refl H o _)).
      assert (D' : distinct_names t').
      { apply (distinct_moved t t' (cut (length fs1)) D). intros [|i r] u0 name g os F; [destruct (found_nil _ _ _ _ _ F)|]. destruct (cut_onto fs1 i r) as [a Pa]. exists a. split; [|exact Pa].
        apply (proj2 (cut_found t t' fs1 fs2 x Ut Ut' a _ Pa)), F. }
      apply (C68_removed t t' fs1 fs2 x Ut Ut' (or_introl D) (or_introl D') m m' w w' vs1 vs2 VNil opts o L1); [| |exact C | exact C' | exact P | exact P'].
      { intros r name g j g' C1 C2. exists r. symmetry. eapply D; eauto. }
      intros r u0 name g os F. right. left.
      apply (found_embedded t (length fs1) b u r u0 name g os T He) in F. destruct r as [|j r]; [destruct (found_nil _ _ _ _ _ F)|].
      assert (N : nth_error (vs1 ++ VNil :: vs2) (length fs1) = Some VNil) by (rewrite nth_error_app2, L1, Nat.sub_diag by lia; reflexivity). cbn [vget]. rewrite N. reflexivity.
    Qed.
  End One.
End Embed.

(** ** Examples *)
(** The candidates of a type with finitely many. *)
Definition listed_field (H : host) (rec : typ -> option (list (list nat * bytes))) (i : nat) (d : fdecl) (v : typ) : option (list (list nat * bytes)) :=
  match classify H d v with
  | FRecord name _ _ => Some [([i], name)]
  | FEmbed => match rec (strip_ptr v) with Some l => Some (map (fun x => (i :: fst x, snd x)) l) | None => None end
  | FSkip => Some []
  end.
Fixpoint listed_fields (H : host) (rec : typ -> option (list (list nat * bytes))) (i : nat) (fs : list (fdecl * typ)) : option (list (list nat * bytes)) :=
  match fs with
  | [] => Some []
  | (d, v) :: fs => match listed_field H rec i d v, listed_fields H rec (S i) fs with Some a, Some b => Some (a ++ b) | _, _ => None end
  end.
Fixpoint listed (H : host) (n : nat) (t : typ) : option (list (list nat * bytes)) :=
  match n with O => None | S n => listed_fields H (listed H n) 0 (fields_of H t) end.
Lemma listed_nth H rec : forall fs i l, listed_fields H rec i fs = Some l -> forall j d v, nth_error fs j = Some (d, v) -> exists a, listed_field H rec (i + j) d v = Some a /\ incl a l.
Proof.
  induction fs as [|[d0 v0] fs IH]; intros i l Hg j d v N; [destruct j; discriminate|]. cbn [listed_fields] in Hg.
  destruct (listed_field H rec i d0 v0) as [a|] eqn:Ea; [|discriminate]. destruct (listed_fields H rec (S i) fs) as [b|] eqn:Eb; [|discriminate]. injection Hg as <-. destruct j as [|j]; cbn [nth_error] in N.
  - injection N as <- <-. rewrite Nat.add_0_r. exists a. split; [exact Ea | apply incl_appl, incl_refl].
  - destruct (IH (S i) b Eb j d v N) as (a' & A1 & A2). replace (S i + j)%nat with (i + S j)%nat in A1 by lia. exists a'. split; [exact A1 | apply incl_appr, A2].
Qed.
Lemma listed_ok H vcall : host_ok H vcall -> forall n t l, tyok H t -> listed H n t = Some l -> forall index u name g opts, found_at H t index u name g opts -> In (index, name) l.
Proof.
  intros OK. assert (W := ok_wf _ _ OK). induction n as [|n IH]; intros t l T Hl index u name g opts F; [discriminate|]. cbn [listed] in Hl.
  destruct index as [|i r]; [destruct (found_nil _ _ _ _ _ _ F)|]. apply found_cons in F. destruct F as [[-> B]|(b & w & A & F)].
  - apply (recd_iff H W) in B; [|exact T]. destruct B as (d & N & K). destruct (listed_nth H _ _ _ _ Hl _ _ _ N) as (a & A1 & A2). unfold listed_field in A1. rewrite K in A1. injection A1 as <-. apply A2. left. reflexivity.
  - apply (edge_iff H W) in A; [|exact T]. assert (Tw : tyok H w) by (eapply edge_ok; eauto). destruct A as (d & v & N & K & -> & _). destruct (listed_nth H _ _ _ _ Hl _ _ _ N) as (a & A1 & A2). unfold listed_field in A1. rewrite K in A1.
    destruct (listed H n (strip_ptr v)) as [lw|] eqn:El; [|discriminate]. injection A1 as <-. apply A2. apply in_map_iff. exists (r, name). split; [reflexivity|]. eapply IH; eauto.
Qed.
Lemma listed_distinct H vcall n t l : host_ok H vcall -> tyok H t -> listed H n t = Some l -> NoDup (map snd l) -> distinct_names H t.
Proof.
  intros OK T Hl N i j name g g' A B. apply found_cand in A, B. destruct A as (u & o & A), B as (u' & o' & B). apply (listed_ok H vcall OK n t l T Hl) in A, B.
  clear - N A B. induction l as [|[k m] l IH]; [destruct A|]. cbn [map snd] in N. inversion N as [|? ? N1 N2]; subst. destruct A as [A|A], B as [B|B]; [congruence | | |auto].
  - injection A as -> ->. exfalso. apply N1. apply in_map_iff. exists (j, name). auto.
  - injection B as -> ->. exfalso. apply N1. apply in_map_iff. exists (i, name). auto.
Qed.

(** type In struct{X int; Y string `json:"y"`}; struct{A int; In; B bool}, the same
    with *In, and the struct with all the fields. *)
Definition em_ds : list typ := [TStruct [fld "X" "" (TInt KInt); fld "Y" "y" TString]].
Definition em_H : host := plainH em_ds.
Lemma em_ok : host_ok em_H plainV. Proof. apply plainH_ok. vm_compute. reflexivity. Qed.
Definition em_t : typ := TStruct [fld "A" "" (TInt KInt); emb "In" (TNamed 0); fld "B" "" TBool].
Definition em_p : typ := TStruct [fld "A" "" (TInt KInt); emb "In" (TPtr (TNamed 0)); fld "B" "" TBool].
Definition em_f : typ := TStruct [fld "A" "" (TInt KInt); fld "X" "" (TInt KInt); fld "Y" "y" TString; fld "B" "" TBool].
Definition em_c : typ := TStruct [fld "A" "" (TInt KInt); fld "B" "" TBool].
Definition em_ws : list val := [VInt 2; VStr (lit "s")].
Definition em_v (l : list val) : val := VStruct ([VInt 1] ++ l ++ [VBool true]).
Notation em_run t v r := (marshal_returns em_H (mem_of em_H t v) (Some (t, word_of em_H t v)) [] r).
Lemma em_call t v : callb em_H 10 t v default_opts = true -> call em_H (mem_of em_H t v) t (word_of em_H t v) v [] default_opts.
Proof. apply (plain_call em_ds 10). reflexivity. Qed.
Lemma em_embeds_ptr : embeds_ em_H em_p 1 true (TNamed 0).
Proof.
  eexists _, _, _, [], []. split; [reflexivity|]. split; [reflexivity|]. split; [split; [left; reflexivity | discriminate]|]. split; [reflexivity|]. split; [split; [reflexivity | split; [intros [] | constructor]]|].
  split; [apply no_valid_empty|]. split; [left; reflexivity|]. split; [eexists; reflexivity|]. split; [eexists; reflexivity | reflexivity].
Qed.
Lemma em_tok t v : callb em_H 10 t v default_opts = true -> tyok em_H t.
Proof. intros X. exact (call_part_tok em_H plainV em_ok _ t _ v [] default_opts (em_call t v X) _ (part_refl em_H default_opts _)). Qed.
Lemma em_distinct_t : distinct_names em_H em_t.
Proof. eapply (listed_distinct em_H plainV 3 em_t _ em_ok); [apply (em_tok em_t (em_v [VStruct em_ws])); reflexivity | vm_compute; reflexivity|]. repeat (constructor; [cbn; intuition discriminate|]). constructor. Qed.
Lemma em_distinct_p : distinct_names em_H em_p.
Proof. eapply (listed_distinct em_H plainV 3 em_p _ em_ok); [apply (em_tok em_p (em_v [VPtr (VStruct em_ws)])); reflexivity | vm_compute; reflexivity|]. repeat (constructor; [cbn; intuition discriminate|]). constructor. Qed.
Definition em_out : bytes := lit "{""A"":1,""X"":2,""y"":""s"",""B"":true}".
Example C66_ex_run : em_run em_f (em_v em_ws) (MOk em_out).
Proof. exists 20%nat. split; [vm_compute; reflexivity | discriminate]. Qed.
Example C66_ex_value : em_run em_t (em_v [VStruct em_ws]) (MOk em_out).
Proof.
  apply (C66_embedded em_H plainV em_ok em_t em_f (TNamed 0) [fld "A" "" (TInt KInt)] [fld "B" "" TBool] [fld "X" "" (TInt KInt); fld "Y" "y" TString] (emb "In" (TNamed 0)) false eq_refl
    (emb_embeds em_ds em_t 1 _ "In" 0 _ eq_refl eq_refl eq_refl) eq_refl em_distinct_t _ (mem_of em_H em_f (em_v em_ws)) _ (word_of em_H em_f (em_v em_ws)) [VInt 1] [VBool true] em_ws (VStruct em_ws) [] default_opts eq_refl eq_refl eq_refl (or_introl eq_refl)
    (em_call em_t (em_v [VStruct em_ws]) eq_refl) (em_call em_f (em_v em_ws) eq_refl) (conj eq_refl eq_refl) (conj eq_refl eq_refl)).
  exact C66_ex_run.
Qed.
Example C66_ex_pointer : em_run em_p (em_v [VPtr (VStruct em_ws)]) (MOk em_out).
Proof.
  apply (C66_embedded em_H plainV em_ok em_p em_f (TNamed 0) [fld "A" "" (TInt KInt)] [fld "B" "" TBool] [fld "X" "" (TInt KInt); fld "Y" "y" TString] (emb "In" (TPtr (TNamed 0))) true eq_refl
    em_embeds_ptr eq_refl em_distinct_p _ (mem_of em_H em_f (em_v em_ws)) _ (word_of em_H em_f (em_v em_ws)) [VInt 1] [VBool true] em_ws (VPtr (VStruct em_ws)) [] default_opts eq_refl eq_refl eq_refl (or_intror eq_refl)
    (em_call em_p (em_v [VPtr (VStruct em_ws)]) eq_refl) (em_call em_f (em_v em_ws) eq_refl) (conj eq_refl eq_refl) (conj eq_refl eq_refl)).
  exact C66_ex_run.
Qed.
Example C66_ex_nil : em_run em_p (em_v [VNil]) (MOk (lit "{""A"":1,""B"":true}")).
Proof.
  apply (C66_nil em_H plainV em_ok em_p em_c (TNamed 0) [fld "A" "" (TInt KInt)] [fld "B" "" TBool] (emb "In" (TPtr (TNamed 0))) true eq_refl
    em_embeds_ptr em_distinct_p _ (mem_of em_H em_c (em_v [])) _ (word_of em_H em_c (em_v [])) [VInt 1] [VBool true] [] default_opts eq_refl eq_refl
    (em_call em_p (em_v [VNil]) eq_refl) (em_call em_c (em_v []) eq_refl) (conj eq_refl eq_refl) (conj eq_refl eq_refl)).
  exists 20%nat. split; [vm_compute; reflexivity | discriminate].
Qed.
Print Assumptions C66_embedded.
Print Assumptions C66_nil.

(** ** Examples of fields that are not shown *)
(** struct{A int; S chan int `json:"-"`; B bool}, with a field that could not be
    encoded, and struct{A int; P string `json:"p,omitempty"`; B bool}. *)
Definition em_s : typ := TStruct [fld "A" "" (TInt KInt); fld "S" "-" TComplex; fld "B" "" TBool].
Definition em_o : typ := TStruct [fld "A" "" (TInt KInt); fld "P" "p,omitempty" TString; fld "B" "" TBool].
Definition em_short : bytes := lit "{""A"":1,""B"":true}".
Example C68_ex_run : em_run em_c (em_v []) (MOk em_short).
Proof. exists 20%nat. split; [vm_compute; reflexivity | discriminate]. Qed.
Lemma em_distinct_c : distinct_names em_H em_c.
Proof. eapply (listed_distinct em_H plainV 3 em_c _ em_ok); [apply (em_tok em_c (em_v [])); reflexivity | vm_compute; reflexivity|]. repeat (constructor; [cbn; intuition discriminate|]). constructor. Qed.
Lemma em_distinct_s : distinct_names em_H em_s.
Proof. eapply (listed_distinct em_H plainV 3 em_s _ em_ok); [apply (em_tok em_s (em_v [VOpaque])); reflexivity | vm_compute; reflexivity|]. repeat (constructor; [cbn; intuition discriminate|]). constructor. Qed.
Lemma em_distinct_o : distinct_names em_H em_o.
Proof. eapply (listed_distinct em_H plainV 3 em_o _ em_ok); [apply (em_tok em_o (em_v [VStr []])); reflexivity | vm_compute; reflexivity|]. repeat (constructor; [cbn; intuition discriminate|]). constructor. Qed.
Example C68_ex_skipped : em_run em_s (em_v [VOpaque]) (MOk em_short).
Proof.
  apply (C68_skipped em_H plainV em_ok em_s em_c [fld "A" "" (TInt KInt)] [fld "B" "" TBool] (fld "S" "-" TComplex) eq_refl eq_refl (or_introl em_distinct_s) (or_introl em_distinct_c) _ (mem_of em_H em_c (em_v [])) _ (word_of em_H em_c (em_v []))
    [VInt 1] [VBool true] VOpaque [] default_opts eq_refl).
  - intros [_ X]. apply X. reflexivity.
  - apply (em_call em_s (em_v [VOpaque]) eq_refl).
  - apply (em_call em_c (em_v []) eq_refl).
  - split; reflexivity.
  - split; reflexivity.
  - exact C68_ex_run.
Qed.
(** struct{A int; S `json:"-"`; B bool `json:"b"`; C bool `json:"b"`}: two fields of the
    same rank clash, and S may go even so. *)
Definition em_k (l : list (fdecl * typ)) : typ := TStruct ([fld "A" "" (TInt KInt)] ++ l ++ [fld "B" "b" TBool; fld "C" "b" TBool]).
Definition em_kv (l : list val) : val := VStruct ([VInt 1] ++ l ++ [VBool true; VBool false]).
Lemma none_embedded H t : (forall i b u, ~ embeds_ H t i b u) -> single_diamonds H t.
Proof.
  intros N. assert (Z : forall p sq w, steps H t p sq w -> p = []).
  { induction 1 as [|p sq w i b fs u Hp IH He Hs]; [reflexivity|]. subst p. inversion Hp as [|p1 ? ? ? ? ? ? ? ? ? Ep]; subst; [destruct (N _ _ _ He) | destruct p1; discriminate]. }
  intros p q sq sq' w i b u P Q Ne. rewrite (Z _ _ _ P), (Z _ _ _ Q) in Ne. destruct (Ne eq_refl).
Qed.
Lemma em_single l : forallb (fun x => negb (fd_anon (fst x))) l = true -> single_diamonds em_H (em_k l).
Proof.
  intros Hl. apply none_embedded. intros i b u (fs & d & v & nm & os & A1 & A2 & _ & A4 & _). unfold struct_of, em_k in A1. cbn in A1. injection A1 as <-. apply nth_error_In in A2.
  cbn [app] in A2. destruct A2 as [A2|A2]; [injection A2 as <- <-; discriminate A4|]. apply in_app_or in A2. destruct A2 as [A2|[A2|[A2|[]]]]; [|injection A2 as <- <-; discriminate A4 | injection A2 as <- <-; discriminate A4].
  rewrite forallb_forall in Hl. apply Hl in A2. cbn [fst] in A2. rewrite A4 in A2. discriminate.
Qed.
Example C68_ex_clash : em_run (em_k [fld "S" "-" TComplex]) (em_kv [VOpaque]) (MOk (lit "{""A"":1}")).
Proof.
  apply (C68_skipped em_H plainV em_ok (em_k [fld "S" "-" TComplex]) (em_k []) [fld "A" "" (TInt KInt)] [fld "B" "b" TBool; fld "C" "b" TBool] (fld "S" "-" TComplex) eq_refl eq_refl (or_intror (em_single [fld "S" "-" TComplex] eq_refl)) (or_intror (em_single [] eq_refl))
    _ (mem_of em_H (em_k []) (em_kv [])) _ (word_of em_H (em_k []) (em_kv [])) [VInt 1] [VBool true; VBool false] VOpaque [] default_opts eq_refl).
  - intros [_ X]. apply X. reflexivity.
  - apply (em_call (em_k [fld "S" "-" TComplex]) (em_kv [VOpaque]) eq_refl).
  - apply (em_call (em_k []) (em_kv []) eq_refl).
  - split; reflexivity.
  - split; reflexivity.
  - exists 20%nat. split; [vm_compute; reflexivity | discriminate].
Qed.
Lemma em_here : candidate_here (h_env em_H) (h_letter em_H) (h_udigit em_H) em_o 1 TString (lit "p") true [lit "omitempty"].
Proof. apply (recd_iff em_H (ok_wf _ _ em_ok)); [apply (em_tok em_o (em_v [VStr []])); reflexivity|]. eexists. split; vm_compute; reflexivity. Qed.
Lemma em_alone : forall j g', cand em_H em_o j (lit "p") g' -> j = [1%nat].
Proof.
  intros j g' C. apply found_cand in C. destruct C as (u & os & F). apply (listed_ok em_H plainV em_ok 3 em_o [([0%nat], lit "A"); ([1%nat], lit "p"); ([2%nat], lit "B")] (em_tok em_o (em_v [VStr []]) eq_refl)) in F; [|vm_compute; reflexivity].
  destruct F as [F|[F|[F|[]]]]; [discriminate F | injection F as <-; reflexivity | discriminate F].
Qed.
Example C68_ex_empty : em_run em_o (em_v [VStr []]) (MOk em_short).
Proof.
  apply (C68_hidden em_H plainV em_ok em_o em_c [fld "A" "" (TInt KInt)] [fld "B" "" TBool] (fld "P" "p,omitempty" TString) eq_refl eq_refl (or_introl em_distinct_o) (or_introl em_distinct_c) _ (mem_of em_H em_c (em_v [])) _ (word_of em_H em_c (em_v []))
    [VInt 1] [VBool true] (VStr []) [] default_opts eq_refl (lit "p") true [lit "omitempty"] em_here em_alone).
  - right. left. split; [left; reflexivity | reflexivity].
  - apply (em_call em_o (em_v [VStr []]) eq_refl).
  - apply (em_call em_c (em_v []) eq_refl).
  - split; reflexivity.
  - split; reflexivity.
  - exact C68_ex_run.
Qed.
(** The same struct with DenyList([]string{"p"}) and a string that is not empty. *)
Definition em_deny : list (option option_) := [Some (ODenyList [lit "p"])].
Definition em_do : encOpts := config em_deny.
Lemma em_dcall t v : callb em_H 10 t v em_do = true -> call em_H (mem_of em_H t v) t (word_of em_H t v) v em_deny em_do.
Proof. apply (plain_call em_ds 10). vm_compute. reflexivity. Qed.
Example C68_ex_denied : marshal_returns em_H (mem_of em_H em_o (em_v [VStr (lit "x")])) (Some (em_o, word_of em_H em_o (em_v [VStr (lit "x")]))) em_deny (MOk em_short).
Proof.
  apply (C68_hidden em_H plainV em_ok em_o em_c [fld "A" "" (TInt KInt)] [fld "B" "" TBool] (fld "P" "p,omitempty" TString) eq_refl eq_refl (or_introl em_distinct_o) (or_introl em_distinct_c) _ (mem_of em_H em_c (em_v [])) _ (word_of em_H em_c (em_v []))
    [VInt 1] [VBool true] (VStr (lit "x")) em_deny em_do eq_refl (lit "p") true [lit "omitempty"] em_here em_alone).
  - left. apply denied_concealed. apply isDeniedField_spec. vm_compute. reflexivity.
  - apply (em_dcall em_o (em_v [VStr (lit "x")])). vm_compute. reflexivity.
  - apply (em_dcall em_c (em_v [])). vm_compute. reflexivity.
  - split; reflexivity.
  - split; reflexivity.
  - exists 20%nat. split; [vm_compute; reflexivity | discriminate].
Qed.
Example C68_ex_removed : em_run em_s (em_v [VOpaque]) (MOk em_short).
Proof.
  apply (C68_removed em_H plainV em_ok em_s em_c [fld "A" "" (TInt KInt)] [fld "B" "" TBool] (fld "S" "-" TComplex) eq_refl eq_refl (or_introl em_distinct_s) (or_introl em_distinct_c) _ (mem_of em_H em_c (em_v [])) _ (word_of em_H em_c (em_v []))
    [VInt 1] [VBool true] VOpaque [] default_opts eq_refl).
  - intros r name g j g' C1 C2. exists r. symmetry. exact (em_distinct_s _ _ _ _ _ C1 C2).
  - intros r u name g os F. exfalso. apply (listed_ok em_H plainV em_ok 3 em_s [([0%nat], lit "A"); ([2%nat], lit "B")] (em_tok em_s (em_v [VOpaque]) eq_refl)) in F; [|vm_compute; reflexivity]. destruct F as [F|[F|[]]]; discriminate F.
  - apply (em_call em_s (em_v [VOpaque]) eq_refl).
  - apply (em_call em_c (em_v []) eq_refl).
  - split; reflexivity.
  - split; reflexivity.
  - exact C68_ex_run.
Qed.
Print Assumptions C68_removed.
Print Assumptions C68_skipped.
Print Assumptions C68_hidden.
