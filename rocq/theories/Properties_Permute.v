(** C69: the order in which the fields of a struct are declared decides the order
    of the members, and nothing else. *)
From Coq Require Import Permutation Sorted.
From Verif Require Import Base Utf8 JsonSpec NumberModel NumberProof OptionsModel EscapeModel EscapeProof JsonParse StrictParse CompactModel CompactProof IntModel IntProof TypesModel TypesFacts TagsModel TagsProof CalendarSpec TimeModel TimeProof
  FloatModel FloatProof LeafModel LeafProof MemModel FieldsSpec FieldsModel FieldsSelect FieldsProof FieldsThm InstrModel ExecModel ValueModel ExecMono ExecProof HostFacts VencFacts MarshalThm DocSpec EntriesFacts DocLeaf PartFacts DocProof SafeProof ApiFacts
  PartsThm ShapeThm CallFacts MethodsThm ExampleHost ExampleConst ExampleRead Properties_Options Properties_Strings Properties_Numbers Properties_Fields Properties_Members Properties_Maps Properties_Api Properties_Marshalers Properties_Compose Properties_Embed.
From Coq Require Import FinFun.

Section Permute.
  Variable H : host.
  Variable vcall : mkind -> typ -> val -> option Z -> bytes + Z.
  Hypothesis OK : host_ok H vcall.
  Notation E := (h_env H).
  Notation here := (candidate_here E (h_letter H) (h_udigit H)).

  (** ** The same fields at other indices *)
  Definition shift (g : nat -> nat) (a : list nat) : option (list nat) := match a with [] => None | i :: r => Some (g i :: r) end.

  Section Moved.
    Variables (t t' : typ) (fs fs' : list (fdecl * typ)) (vs vs' : list val) (g : nat -> nat).
    Hypothesis Ut : under E t = TStruct fs.
    Hypothesis Ut' : under E t' = TStruct fs'.
    Hypothesis Ng : forall i, nth_error fs i = nth_error fs' (g i).
    Hypothesis Vg : forall i, nth_error vs i = nth_error vs' (g i).
    Hypothesis Ig : forall i j, g i = g j -> i = j.
    Hypothesis Og : forall j, (j < length fs')%nat -> exists i, g i = j.

    Lemma shift_found a b : shift g a = Some b -> length b = length a /\ (forall u name k os, found_at H t a u name k os <-> found_at H t' b u name k os) /\ vget a (VStruct vs) = vget b (VStruct vs').
    Proof.
      destruct a as [|i r]; [discriminate|]. cbn [shift]. intros [= <-]. split; [reflexivity|]. split; [|apply vget_moved, Vg].
      intros u name k os. split; intros F; [exact (found_moved H t t' fs fs' i (g i) r _ _ _ _ Ut Ut' (Ng i) F) | exact (found_moved H t' t fs' fs (g i) i r _ _ _ _ Ut' Ut (eq_sym (Ng i)) F)].
    Qed.
    Lemma shift_onto b u name k os : found_at H t' b u name k os -> exists a, shift g a = Some b.
    Proof.
      intros F. destruct b as [|j r]; [destruct (found_nil _ _ _ _ _ _ F)|]. assert (B := found_bound _ _ _ _ _ _ _ _ _ Ut' F). destruct (Og j B) as [i <-]. exists (i :: r). reflexivity.
    Qed.
    Lemma shift_sole a b name k : cand H t a name k -> shift g a = Some b -> (sole H t a name k <-> sole H t' b name k).
    Proof.
      apply (sole_moved H t t' (shift g) name).
      - intros a1 k1 C1. apply found_cand in C1. destruct C1 as (u & os & F). destruct a1 as [|i r]; [destruct (found_nil _ _ _ _ _ _ F)|]. exists (g i :: r).
        destruct (shift_found (i :: r) (g i :: r) eq_refl) as (A & B & _). split; [reflexivity|]. split; [apply found_cand; exists u, os; apply B, F | exact A].
      - intros b1 k1 C1. apply found_cand in C1. destruct C1 as (u & os & F). destruct (shift_onto _ _ _ _ _ F) as [a1 P1]. destruct (shift_found _ _ P1) as (A & B & _).
        exists a1. split; [exact P1|]. split; [apply found_cand; exists u, os; apply B, F | exact A].
      - intros [|i r] [|i' r'] b1; try discriminate. cbn [shift]. intros [= <-] [= A <-]. f_equal. apply Ig. congruence.
    Qed.

    Hypothesis T : tyok H t.
    Hypothesis T' : tyok H t'.
    Hypothesis Se : settled H t.
    Hypothesis Se' : settled H t'.
    Notation alike := (same_field H t t' (VStruct vs) (VStruct vs')).

    Lemma found_alike k k' l l' f f' : structFields H k t = Some l -> structFields H k' t' = Some l' -> In f l -> In f' l' -> shift g (f_index f) = Some (f_index f') -> alike f f'.
    Proof.
      intros S S' Hf Hf' P. destruct (field_found H vcall OK t k l f T S Hf) as (u & os & F & Fl & Ty). destruct (field_found H vcall OK t' k' l' f' T' S' Hf') as (u' & os' & F' & Fl' & Ty').
      destruct (shift_found _ _ P) as (_ & B & V). apply B in F. destruct (found_det H vcall OK t' _ _ _ _ _ _ _ _ _ T' F F') as (-> & N & _ & ->). destruct Fl as (A1 & A2 & A3), Fl' as (B1 & B2 & B3). repeat split; congruence.
    Qed.
    Lemma field_to k k' l l' f : structFields H k t = Some l -> structFields H k' t' = Some l' -> In f l -> exists f', In f' l' /\ alike f f'.
    Proof.
      intros S S' Hf. destruct (field_found H vcall OK t k l f T S Hf) as (u & os & F & _). assert (W := field_winner H vcall OK t k l f T Se S Hf).
      destruct (f_index f) as [|i r] eqn:Ei; [destruct (found_nil _ _ _ _ _ _ F)|].
      apply (shift_sole _ (g i :: r)) in W; [|apply found_cand; eauto | reflexivity]. destruct (winner_field H vcall OK t' k' l' _ _ _ T' S' W) as (f' & Hf' & If). exists f'. split; [exact Hf'|].
      eapply found_alike; eauto. rewrite Ei, If. reflexivity.
    Qed.
    Lemma field_from k k' l l' f' : structFields H k t = Some l -> structFields H k' t' = Some l' -> In f' l' -> exists f, In f l /\ alike f f'.
    Proof.
      intros S S' Hf. destruct (field_found H vcall OK t' k' l' f' T' S' Hf) as (u & os & F & _). assert (W := field_winner H vcall OK t' k' l' f' T' Se' S' Hf).
      destruct (shift_onto _ _ _ _ _ F) as [a P]. apply (proj1 (proj2 (shift_found _ _ P))) in F.
      apply (shift_sole a) in W; [|apply found_cand; eauto | exact P]. destruct (winner_field H vcall OK t k l _ _ _ T S W) as (f & Hf' & If). exists f. split; [exact Hf'|].
      eapply found_alike; eauto. rewrite If. exact P.
    Qed.
  End Moved.

  (** ** Fields that are alike *)
  Section Alike.
    Variables (t t' : typ) (v v' : val) (o : encOpts) (ca : bool).
    Notation alike := (same_field H t t' v v').
    Lemma alike_shown f f' ft x : alike f f' -> (shown H o t v f ft x <-> shown H o t' v' f' ft x).
    Proof. intros (S1 & S2 & S3 & S4 & S5 & S6). unfold shown, field_value, dropped. rewrite S1, S2, S3, S5, S6. reflexivity. Qed.
    Lemma alike_quoted f f' ft : alike f f' -> quoted H f ft = quoted H f' ft.
    Proof. intros (S1 & S2 & S3 & S4 & S5 & S6). unfold quoted. rewrite S4. reflexivity. Qed.
    Lemma alike_drops f f' ft : alike f f' -> (drops_null H f ft <-> drops_null H f' ft).
    Proof. intros (S1 & S2 & S3 & S4 & S5 & S6). unfold drops_null. rewrite S2. reflexivity. Qed.

    Definition named (l : list (field * option bytes)) : list (bytes * option bytes) := map (fun x => (f_name (fst x), snd x)) l.
    Lemma named_in fs fs' l l' : (forall f, In f fs -> exists f', In f' fs' /\ alike f f') -> shown_bytes H vcall o t ca v fs l -> shown_bytes H vcall o t' ca v' fs' l' -> incl (named l) (named l').
    Proof.
      intros M S S' [name b] Hn. apply in_map_iff in Hn. destruct Hn as ([f b0] & [= <- ->] & Hf). cbn [fst snd]. destruct (shown_bytes_in H vcall o t ca v fs l S f b Hf) as (Hi & ft & x & b' & Sh & Hb & Q).
      destruct (M f Hi) as (f' & Hf' & A). assert (Sh' := Sh). apply (alike_shown f f' ft x A) in Sh'. destruct (shown_bytes_all H vcall o t' ca v' fs' l' S' f' ft x Hf' Sh') as [b1 Hb1].
      apply in_map_iff. exists (f', b1). split; [|exact Hb1]. cbn [fst snd]. destruct (shown_bytes_in H vcall o t' ca v' fs' l' S' f' b1 Hb1) as (_ & ft' & x' & b2 & Sh2 & Hb2 & Q2).
      destruct (shown_det H o t' v' f' ft x ft' x' Sh' Sh2) as [<- <-]. rewrite <- (alike_quoted f f' ft A) in Hb2. assert (b2 = b') by exact (bytes_of_det H vcall o _ _ _ Hb2 Hb). subst b2. rewrite <- (alike_drops f f' ft A) in Q2.
      f_equal; [symmetry; apply A|]. destruct Q as [[-> Q]|[-> Q]], Q2 as [[-> Q2]|[-> Q2]]; [reflexivity | tauto | tauto | reflexivity].
    Qed.
    Lemma named_nodup fs l : NoDup (map f_name fs) -> shown_bytes H vcall o t ca v fs l -> NoDup (named l).
    Proof.
      intros N S. assert (X : NoDup (map fst (named l))); [|revert X; apply NoDup_map_inv].
      assert (Q : forall name, In name (map fst (named l)) -> In name (map f_name fs)).
      { intros name Hn. unfold named in Hn. rewrite map_map in Hn. apply in_map_iff in Hn. destruct Hn as ([f b] & <- & Hf). cbn [fst snd]. apply List.in_map. apply (shown_bytes_in H vcall o t ca v fs l S f b Hf). }
      clear Q. revert N. induction S as [|f fs l Hh S IH|f ft x b fs l Hs Hb Hd He S IH|f ft x b fs l Hs Hb Hd S IH]; intros N; [constructor | inversion N; auto | |];
        (inversion N as [|? ? N1 N2]; subst; cbn [named map fst]; constructor; [|exact (IH N2)]; intros C; apply N1; rewrite map_map in C; apply in_map_iff in C; destruct C as ([f0 b0] & Hn & Hf0); cbn [fst] in Hn;
         rewrite <- Hn; apply List.in_map; apply (shown_bytes_in H vcall o t ca v fs l S f0 b0 Hf0)).
    Qed.
  End Alike.

  (** An object is encoded when every field that is shown is. *)
  Lemma vfields_each o n t ca v fs : forall first out b e, vfields H o (venc H vcall o n) t ca v fs first out = VRet b e ->
    (e = None <-> forall f ft x, In f fs -> shown H o t v f ft x -> exists b, venc H vcall o n ft ca (quoted H f ft) x = VRet b None).
  Proof.
    induction fs as [|f fs IH]; intros first out b e Hr.
    - cbn [vfields] in Hr. destruct first; injection Hr as <- <-; (split; [intros _ f ft x [] | reflexivity]).
    - assert (Hid : hidden H o t v f -> vfields H o (venc H vcall o n) t ca v fs first out = VRet b e ->
        (e = None <-> forall f0 ft x, In f0 (f :: fs) -> shown H o t v f0 ft x -> exists b, venc H vcall o n ft ca (quoted H f0 ft) x = VRet b None)).
      { intros Hh Hx. rewrite (IH _ _ _ _ Hx). split; intros Q f0 ft x Hi Sh; [destruct Hi as [<-|Hi]; [destruct (shown_not_hidden H o t v f ft x Sh Hh) | exact (Q f0 ft x Hi Sh)] | exact (Q f0 ft x (or_intror Hi) Sh)]. }
      cbn [vfields] in Hr. destruct (isDeniedField o (f_name f)) eqn:Ed; [apply Hid; [left; apply isDeniedField_spec; exact Ed | exact Hr]|].
      destruct (negb (right_seq H t f)); [discriminate|].
      destruct (vget (f_index f) v) as [[x|]|] eqn:Ev; [|apply Hid; [right; left; exact Ev | exact Hr] | discriminate].
      destruct (type_by_index H t (f_index f)) as [ft|] eqn:Et; [|discriminate].
      destruct (f_omitNil f && vnil x) eqn:En.
      { apply Hid; [|exact Hr]. right. right. exists ft, x. split; [split; assumption|]. apply dropped_spec. rewrite En. reflexivity. }
      destruct (f_omitEmpty f && vempty x) eqn:Ee.
      { apply Hid; [|exact Hr]. right. right. exists ft, x. split; [split; assumption|]. apply dropped_spec. rewrite Ee. apply orb_true_r. }
      assert (Sh : shown H o t v f ft x).
      { split; [rewrite <- isDeniedField_spec; congruence|]. split; [split; assumption|]. rewrite <- dropped_spec, En, Ee. discriminate. }
      cbn zeta in Hr. fold (quoted H f ft) in Hr. destruct (venc H vcall o n ft ca (quoted H f ft) x) as [y [z|]| |] eqn:Er; try discriminate.
      + injection Hr as <- <-. split; [discriminate|]. intros Q. destruct (Q f ft x (or_introl eq_refl) Sh) as [b' Q']. congruence.
      + rewrite (IH _ _ _ _ Hr). split; intros Q f0 ft0 x0 Hi Sh0; [|exact (Q f0 ft0 x0 (or_intror Hi) Sh0)]. destruct Hi as [<-|Hi]; [|exact (Q f0 ft0 x0 Hi Sh0)].
        destruct (shown_det H o t v f ft x ft0 x0 Sh Sh0) as [<- <-]. eauto.
  Qed.

  (** ** The theorem *)
  Variables (t t' : typ) (fs fs' : list (fdecl * typ)) (vs vs' : list val).
  Hypothesis Ut : under E t = TStruct fs.
  Hypothesis Ut' : under E t' = TStruct fs'.
  Hypothesis Lv : length vs = length fs.
  Hypothesis Lv' : length vs' = length fs'.
  (** The same declarations, with the same values, in another order. *)
  Hypothesis Pm : Permutation (combine fs vs) (combine fs' vs').
  Hypothesis Se : settled H t.
  Hypothesis Se' : settled H t'.
  Variables (m m' : mem) (w w' : Z) (opts : list (option option_)) (o : encOpts).

  Lemma index_map : exists g, (forall i, nth_error fs i = nth_error fs' (g i)) /\ (forall i, nth_error vs i = nth_error vs' (g i)) /\ (forall i j, g i = g j -> i = j) /\ forall j, (j < length fs')%nat -> exists i, g i = j.
  Proof.
    apply Permutation_sym in Pm. apply Permutation_nth_error_bis in Pm. destruct Pm as (g & I & B & N). exists g.
    assert (C : forall A B (l : list A) (l' : list B), length l' = length l -> map fst (combine l l') = l /\ map snd (combine l l') = l').
    { clear. induction l as [|a l IH]; intros [|b l'] L; try discriminate; [split; reflexivity|]. injection L as L. destruct (IH l' L) as [P Q]. cbn [combine map fst snd]. rewrite P, Q. auto. }
    destruct (C _ _ fs vs Lv) as [C1 C2], (C _ _ fs' vs' Lv') as [C1' C2']. split; [|split; [|split; [exact I|]]].
    - intros i. rewrite <- C1, <- C1', !nth_error_map, N. reflexivity.
    - intros i. rewrite <- C2, <- C2', !nth_error_map, N. reflexivity.
    - intros j Hj. rewrite combine_length, Lv', Nat.min_id in B. destruct (proj1 (bInjective_bSurjective B) ltac:(intros x y _ _; apply I) j Hj) as (i & _ & Q). eauto.
  Qed.

  (** Both calls succeed or both fail, and the members of the two objects are the
      same, in the order of the fields. *)
  Theorem C69_permuted : call H m t w (VStruct vs) opts o -> call H m' t' w' (VStruct vs') opts o -> DocSpec.plain H t false -> DocSpec.plain H t' false ->
    ((exists out, marshal_returns H m (Some (t, w)) opts (MOk out)) <-> exists out', marshal_returns H m' (Some (t', w')) opts (MOk out')) /\
    forall out out', marshal_returns H m (Some (t, w)) opts (MOk out) -> marshal_returns H m' (Some (t', w')) opts (MOk out') ->
      exists k k' fl fl' l l', structFields H k t = Some fl /\ structFields H k' t' = Some fl' /\
        shown_bytes H vcall o t false (VStruct vs) fl l /\ shown_bytes H vcall o t' false (VStruct vs') fl' l' /\
        out = object_text o l /\ out' = object_text o l' /\ Permutation (named l) (named l').
  Proof.
    intros C C' P P'. destruct (struct_pair H vcall OK m m' t t' w w' vs vs' fs fs' opts o C C' P P' Ut Ut') as (T & T' & n & b & e & b' & e' & V & V' & R & R').
    destruct (run_fields H vcall OK o n false t _ _ _ T V) as (k & fl & S & F), (run_fields H vcall OK o n false t' _ _ _ T' V') as (k' & fl' & S' & F').
    destruct index_map as (g & Ng & Vg & Ig & Og).
    assert (To : forall f, In f fl -> exists f', In f' fl' /\ same_field H t t' (VStruct vs) (VStruct vs') f f') by (intros f; exact (field_to t t' fs fs' vs vs' g Ut Ut' Ng Vg Ig Og T T' Se k k' fl fl' f S S')).
    assert (From : forall f', In f' fl' -> exists f, In f fl /\ same_field H t t' (VStruct vs) (VStruct vs') f f') by (intros f; exact (field_from t t' fs fs' vs vs' g Ut Ut' Ng Vg Ig Og T T' Se' k k' fl fl' f S S')).
    assert (Sym : forall f f', same_field H t t' (VStruct vs) (VStruct vs') f f' -> same_field H t' t (VStruct vs') (VStruct vs) f' f) by (intros f f' (A1 & A2 & A3 & A4 & A5 & A6); repeat split; congruence).
    split.
    - assert (Q : e = None <-> e' = None).
      { rewrite (vfields_each _ _ _ _ _ _ _ _ _ _ F), (vfields_each _ _ _ _ _ _ _ _ _ _ F'). split; intros X f ft x Hf Sh.
        - destruct (From f Hf) as (f0 & Hf0 & A). rewrite <- (alike_quoted _ _ _ _ f0 f ft A). apply (X f0 ft x Hf0). apply (alike_shown _ _ _ _ _ f0 f ft x A), Sh.
        - destruct (To f Hf) as (f0 & Hf0 & A). rewrite (alike_quoted _ _ _ _ f f0 ft A). apply (X f0 ft x Hf0). apply (alike_shown _ _ _ _ _ f f0 ft x A), Sh. }
      assert (Z : forall x y, (exists z, MOk z = outcome x y) <-> y = None) by (intros x [y|]; cbn [outcome]; split; [intros [z Hz]; discriminate | discriminate | reflexivity | eauto]).
      setoid_rewrite R. setoid_rewrite R'. rewrite !Z. exact Q.
    - intros out out' Ho Ho'. apply R in Ho. apply R' in Ho'. destruct e as [?|]; [discriminate|]. destruct e' as [?|]; [discriminate|]. injection Ho as ->. injection Ho' as ->.
      destruct (vfields_bytes H vcall o n t false _ fl _ _ _ F) as (l & A & B), (vfields_bytes H vcall o n t' false _ fl' _ _ _ F') as (l' & A' & B'). exists k, k', fl, fl', l, l'. repeat (split; [assumption|]).
      apply NoDup_Permutation.
      + eapply named_nodup; [|exact A]. apply (structFields_sorted H (ok_wf _ _ OK) t T k fl S).
      + eapply named_nodup; [|exact A']. apply (structFields_sorted H (ok_wf _ _ OK) t' T' k' fl' S').
      + intros x. split; [eapply named_in; [exact To | exact A | exact A'] | eapply (named_in t' t); [|exact A' | exact A]]. intros f Hf. destruct (From f Hf) as (f0 & Hf0 & X). eauto.
  Qed.

  (** Where omitnil has no null to take back, the objects are those members,
      separated by commas. *)
  Definition members_text (ms : list (bytes * bytes)) : bytes := 123 :: commas (map (fun nb => key_text o (fst nb) ++ snd nb) ms) ++ [125].
  Definition keeps_nulls (s : typ) : Prop := forall a u name g os, found_at H s a u name g os -> In (lit "omitnil") os -> h_impl H u MJson = false /\ h_impl H (TPtr u) MJson = false.
  Definition somes (l : list (bytes * option bytes)) : list (bytes * bytes) := flat_map (fun x => match snd x with Some b => [(fst x, b)] | None => [] end) l.
  Lemma kept_members s k fl ca v l : tyok H s -> keeps_nulls s -> structFields H k s = Some fl -> shown_bytes H vcall o s ca v fl l -> object_text o l = members_text (somes (named l)) /\ map fst (somes (named l)) = map (fun x => f_name (fst x)) l.
  Proof.
    intros T Kn S Sb. assert (N : forall f, ~ In (f, None) l).
    { intros f Hf. destruct (shown_bytes_in H vcall o s ca v fl l Sb f None Hf) as (Hi & ft & x & b & (_ & [_ Hft] & _) & _ & [[Q _]|(_ & [Q1 Q2] & _)]); [discriminate|].
      destruct (field_found H vcall OK s k fl f T S Hi) as (u & os & F & (_ & _ & Fo) & Ty). assert (u = ft) by congruence. subst u. rewrite Fo in Q1. apply tag_contains_spec in Q1. destruct (Kn _ _ _ _ _ F Q1). destruct Q2; congruence. }
    split.
    - rewrite object_kept by (intros f l' ->; apply (N f); left; reflexivity). unfold members_text. apply (f_equal (fun x => 123 :: commas x ++ [125])). clear - N. induction l as [|[f [b|]] l IH]; [reflexivity | | destruct (N f); left; reflexivity].
      cbn [kept flat_map app map named somes fst snd]. f_equal. apply IH. intros f0 Hf. apply (N f0). right. exact Hf.
    - clear - N. induction l as [|[f [b|]] l IH]; [reflexivity | | destruct (N f); left; reflexivity]. cbn [flat_map app map named somes fst snd]. f_equal. apply IH. intros f0 Hf. apply (N f0). right. exact Hf.
  Qed.
  Theorem C69_members : keeps_nulls t -> keeps_nulls t' -> call H m t w (VStruct vs) opts o -> call H m' t' w' (VStruct vs') opts o -> DocSpec.plain H t false -> DocSpec.plain H t' false ->
    forall out out', marshal_returns H m (Some (t, w)) opts (MOk out) -> marshal_returns H m' (Some (t', w')) opts (MOk out') ->
      exists k k' fl fl' ms ms', structFields H k t = Some fl /\ structFields H k' t' = Some fl' /\ sublist (map fst ms) (map f_name fl) /\ sublist (map fst ms') (map f_name fl') /\
        out = members_text ms /\ out' = members_text ms' /\ Permutation ms ms'.
  Proof.
    intros Kn Kn' C C' P P' out out' R R'.
    destruct (struct_pair H vcall OK m m' t t' w w' vs vs' fs fs' opts o C C' P P' Ut Ut') as (T & T' & _).
    destruct (proj2 (C69_permuted C C' P P') out out' R R') as (k & k' & fl & fl' & l & l' & S & S' & Sb & Sb' & -> & -> & Pl).
    destruct (kept_members t k fl _ _ l T Kn S Sb) as [M1 M2], (kept_members t' k' fl' _ _ l' T' Kn' S' Sb') as [M1' M2'].
    exists k, k', fl, fl', (somes (named l)), (somes (named l')). split; [exact S|]. split; [exact S'|]. rewrite M2, M2'.
    assert (Sl : forall s ca v fl l, shown_bytes H vcall o s ca v fl l -> sublist (map (fun x => f_name (fst x)) l) (map f_name fl)).
    { clear. intros s ca v fl l Sb. induction Sb; cbn [map fst]; [constructor | apply sub_skip | apply sub_keep | apply sub_keep]; assumption. }
    split; [eapply Sl; eauto|]. split; [eapply Sl; eauto|]. split; [exact M1|]. split; [exact M1'|]. apply Permutation_flat_map. exact Pl.
  Qed.
End Permute.

(** ** Examples *)
(** struct{A int; In; B bool} and struct{B bool; A int; In}, where In is a struct
    with the fields X and Y. *)
Definition pe_t : typ := TStruct [fld "B" "" TBool; fld "A" "" (TInt KInt); emb "In" (TNamed 0)].
Definition pe_v : val := VStruct [VBool true; VInt 1; VStruct em_ws].
Definition pe_out : bytes := lit "{""B"":true,""A"":1,""X"":2,""y"":""s""}".
Lemma pe_distinct : distinct_names em_H pe_t.
Proof. eapply (listed_distinct em_H plainV 3 pe_t _ em_ok); [apply (em_tok pe_t pe_v); reflexivity | vm_compute; reflexivity|]. repeat (constructor; [cbn; intuition discriminate|]). constructor. Qed.
Lemma pe_perm : Permutation (combine [fld "A" "" (TInt KInt); emb "In" (TNamed 0); fld "B" "" TBool] [VInt 1; VStruct em_ws; VBool true]) (combine [fld "B" "" TBool; fld "A" "" (TInt KInt); emb "In" (TNamed 0)] [VBool true; VInt 1; VStruct em_ws]).
Proof. cbn [combine]. apply Permutation_sym. eapply perm_trans; [apply perm_swap|]. apply perm_skip. apply perm_swap. Qed.
Example C69_ex_run : em_run em_t (em_v [VStruct em_ws]) (MOk em_out) /\ em_run pe_t pe_v (MOk pe_out).
Proof. split; (exists 20%nat; split; [vm_compute; reflexivity | discriminate]). Qed.
Definition em_vs : list val := [VInt 1; VStruct em_ws; VBool true].
Definition pe_vs : list val := [VBool true; VInt 1; VStruct em_ws].
Example C69_ex : (exists out, em_run em_t (em_v [VStruct em_ws]) (MOk out)) <-> exists out, em_run pe_t pe_v (MOk out).
Proof.
  apply (C69_permuted em_H plainV em_ok em_t pe_t _ _ em_vs pe_vs eq_refl eq_refl eq_refl eq_refl pe_perm (or_introl em_distinct_t) (or_introl pe_distinct)
    _ _ _ _ [] default_opts (em_call em_t (em_v [VStruct em_ws]) eq_refl) (em_call pe_t pe_v eq_refl) (conj eq_refl eq_refl) (conj eq_refl eq_refl)).
Qed.
Lemma em_keeps t : keeps_nulls em_H t.
Proof. intros a u name g os _ _. split; reflexivity. Qed.
Example C69_ex_members : exists ms ms', em_out = members_text default_opts ms /\ pe_out = members_text default_opts ms' /\ Permutation ms ms'.
Proof.
  destruct (C69_members em_H plainV em_ok em_t pe_t _ _ em_vs pe_vs eq_refl eq_refl eq_refl eq_refl pe_perm (or_introl em_distinct_t) (or_introl pe_distinct)
    _ _ _ _ [] default_opts (em_keeps _) (em_keeps _) (em_call em_t (em_v [VStruct em_ws]) eq_refl) (em_call pe_t pe_v eq_refl) (conj eq_refl eq_refl) (conj eq_refl eq_refl) _ _ (proj1 C69_ex_run) (proj2 C69_ex_run))
    as (k & k' & fl & fl' & ms & ms' & _ & _ & _ & _ & A & B & P).
  eauto 6.
Qed.

(** Without the condition on the types it is false: with L and R both embedding X,
    which embeds Y, A comes from the one declared first (cf. C18). *)
Definition pd_t (a b : string) (i j : nat) : typ := TStruct [emb a (TNamed i); emb b (TNamed j)].
Definition pd_x (z : Z) : val := VStruct [VStruct [VStruct [VInt z]]].
Theorem C69_permuted_refuted : exists H vcall t t' fs fs' vs vs' m m' w w', host_ok H vcall /\ under (h_env H) t = TStruct fs /\ under (h_env H) t' = TStruct fs' /\ length vs = length fs /\ length vs' = length fs' /\
  Permutation (combine fs vs) (combine fs' vs') /\ call H m t w (VStruct vs) [] default_opts /\ call H m' t' w' (VStruct vs') [] default_opts /\ DocSpec.plain H t false /\ DocSpec.plain H t' false /\
  marshal_returns H m (Some (t, w)) [] (MOk (lit "{""A"":1}")) /\ marshal_returns H m' (Some (t', w')) [] (MOk (lit "{""A"":2}")).
Proof.
  set (t := pd_t "L" "R" 2 3). set (t' := pd_t "R" "L" 3 2). set (v := [pd_x 1; pd_x 2]). set (v' := [pd_x 2; pd_x 1]).
  exists diamH, plainV, t, t', [emb "L" (TNamed 2); emb "R" (TNamed 3)], [emb "R" (TNamed 3); emb "L" (TNamed 2)], v, v', (mem_of diamH t (VStruct v)), (mem_of diamH t' (VStruct v')), (word_of diamH t (VStruct v)), (word_of diamH t' (VStruct v')).
  split; [exact diam_ok|]. do 4 (split; [reflexivity|]). split; [apply perm_swap|]. split; [apply (plain_call _ 10); vm_compute; reflexivity|]. split; [apply (plain_call _ 10); vm_compute; reflexivity|].
  split; [split; reflexivity|]. split; [split; reflexivity|]. split; (exists 20%nat; split; [vm_compute; reflexivity | discriminate]).
Qed.
Print Assumptions C69_permuted.
Print Assumptions C69_members.
Print Assumptions C69_permuted_refuted.
