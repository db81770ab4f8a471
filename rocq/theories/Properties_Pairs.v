(** C23 and C58: which pairs of keys change their order when escaped. *)
From Coq Require Import Permutation Sorted.
From Verif Require Import Base Utf8 JsonSpec OptionsModel EscapeModel EscapeProof NumberProof JsonParse IntModel IntProof TypesModel TypesFacts FloatModel FloatProof FloatSpec FloatShort Base64Proof LeafModel LeafProof
  MemModel FieldsModel InstrModel ExecModel ValueModel ExecProof HostFacts VencFacts MarshalThm DocSpec EntriesFacts DocLeaf PartFacts DocProof SafeProof ApiFacts PartsThm ShapeThm CallFacts ShuffleThm OrderThm MethodsThm
  StrictParse ExampleHost ExampleConst ExampleRead Properties_Options Properties_Strings Properties_Numbers Properties_Floats Properties_FloatText Properties_Members Properties_Maps Properties_Order Properties_Api Properties_Lossless
  Properties_Failures Properties_Std Properties_Generic Properties_GenericStd.

(** The characters that are escaped. *)
Definition escaped_char (html : bool) (r : Z) : Prop := r < 0x20 \/ r = 0x22 \/ r = 0x5C \/ html = true /\ (r = 0x26 \/ r = 0x3C \/ r = 0x3E) \/ r = 0x2028 \/ r = 0x2029.
(** What follows the backslash: the character itself, n, r, t or u. *)
Definition letter (r : Z) : Z := if (r =? 0x22) || (r =? 0x5C) then r else if r =? 10 then 0x6E else if r =? 13 then 0x72 else if r =? 9 then 0x74 else 0x75.
(** A character r and a later one r' whose escaped forms are in the other
    order. *)
Definition reverses (html : bool) (r r' : Z) : Prop :=
  escaped_char html r /\ ~ escaped_char html r' /\ r' < 0x5C \/
  ~ escaped_char html r /\ escaped_char html r' /\ 0x5C < r \/
  escaped_char html r /\ escaped_char html r' /\ letter r' < letter r.

(** ** The first difference of two texts *)
Fixpoint first_diff (a b : bytes) : option (Z * Z) :=
  match a, b with
  | x :: a', y :: b' => if x =? y then first_diff a' b' else Some (x, y)
  | _, _ => None
  end.
Lemma first_diff_lex a b x y : first_diff a b = Some (x, y) -> forall p t u, lexlt (p ++ a ++ t) (p ++ b ++ u) <-> x < y.
Proof.
  revert b. induction a as [|c a IH]; intros [|d b] Hf p t u; try discriminate. cbn [first_diff] in Hf. destruct (c =? d) eqn:E.
  - assert (c = d) by lia. subst d. assert (X := IH b Hf (p ++ [c]) t u). rewrite <- !app_assoc in X. exact X.
  - injection Hf as -> ->. assert (N : x <> y) by lia. clear IH E. induction p as [|c p IH]; cbn [app].
    + split; [intros [L _]; inversion L; subst; [assumption | contradiction] | intros L; split; [apply ll_lt, L | intros [= F]; contradiction]].
    + rewrite <- IH. split; intros [L F]; split; [inversion L; subst; [lia | assumption] | intros Es; apply F; exact (f_equal (cons c) Es) | apply ll_cons, L | intros Es; injection Es as Es; contradiction].
Qed.

Definition esc_charb (html : bool) (r : Z) : bool := (r <? 0x20) || (r =? 0x22) || (r =? 0x5C) || html && ((r =? 0x26) || (r =? 0x3C) || (r =? 0x3E)) || (r =? 0x2028) || (r =? 0x2029).
Lemma esc_charb_ok html r : esc_charb html r = true <-> escaped_char html r.
Proof. unfold esc_charb, escaped_char. destruct html; lia. Qed.
Definition reversesb (html : bool) (r r' : Z) : bool :=
  esc_charb html r && negb (esc_charb html r') && (r' <? 0x5C) || negb (esc_charb html r) && esc_charb html r' && (0x5C <? r) || esc_charb html r && esc_charb html r' && (letter r' <? letter r).
Lemma reversesb_ok html r r' : reversesb html r r' = true <-> reverses html r r'.
Proof.
  unfold reversesb, reverses. rewrite <- !esc_charb_ok. destruct (esc_charb html r), (esc_charb html r'); cbn [andb orb negb]; lia.
Qed.

(** ** Single characters *)
Definition special : list Z := map Z.of_nat (seq 0 128) ++ [0x2028; 0x2029].
Lemma in_special r : 0 <= r -> r < 128 \/ r = 0x2028 \/ r = 0x2029 -> In r special.
Proof.
  intros Hr [L|[-> | ->]]; apply in_or_app; [left | right; left; reflexivity | right; right; left; reflexivity]. apply List.in_map_iff. exists (Z.to_nat r). split; [lia|]. apply in_seq. lia.
Qed.
Definition pair_ok (html : bool) (r r' : Z) : bool :=
  match first_diff (esc_seg false (negb html) (inl r)) (esc_seg false (negb html) (inl r')) with Some (x, y) => Bool.eqb (x <? y) (negb (reversesb html r r')) && negb (x =? y) | None => false end.
Lemma table : forallb (fun html => forallb (fun r => forallb (fun r' => (r' <=? r) || pair_ok html r r') special) special) [true; false] = true.
Proof. vm_compute. reflexivity. Qed.

Lemma utf8_first_diff r r' : 0 <= r -> r < r' -> r' <= 0x10FFFF -> exists x y, first_diff (utf8 r) (utf8 r') = Some (x, y) /\ x < y.
Proof.
  intros A B C. unfold utf8. repeat match goal with |- context [?a <? ?b] => let E := fresh in destruct (a <? b) eqn:E end; try lia; cbn [first_diff];
    repeat match goal with |- context [?a =? ?b] => let E := fresh in destruct (a =? b) eqn:E end; try (eexists; eexists; split; [reflexivity | lia]); exfalso; lia.
Qed.

Lemma utf8_high r : 128 <= r -> scalar r -> exists c u, utf8 r = c :: u /\ 128 <= c.
Proof.
  intros A S. unfold scalar in S. unfold utf8. repeat match goal with |- context [?a <? ?b] => let E := fresh in destruct (a <? b) eqn:E end; try lia; eexists; eexists; (split; [reflexivity | lia]).
Qed.
Lemma char_diff html r r' : scalar r -> scalar r' -> r < r' -> exists x y, first_diff (esc_seg false (negb html) (inl r)) (esc_seg false (negb html) (inl r')) = Some (x, y) /\ (x < y <-> ~ reverses html r r').
Proof.
  intros S S' L. assert (R : 0 <= r <= 0x10FFFF) by (unfold scalar in S; lia). assert (R' : 0 <= r' <= 0x10FFFF) by (unfold scalar in S'; lia).
  destruct (Z_lt_dec r 128) as [A|A]; [|destruct (Z.eq_dec r 0x2028) as [B|B]; [|destruct (Z.eq_dec r 0x2029) as [C|C]]].
  all: assert (D : (r' < 128 \/ r' = 0x2028 \/ r' = 0x2029) \/ (128 <= r' /\ r' <> 0x2028 /\ r' <> 0x2029)) by lia.
  all: destruct D as [D|D].
  1, 3, 5: assert (T := table); rewrite forallb_forall in T; specialize (T html ltac:(destruct html; cbn; auto)); rewrite forallb_forall in T; specialize (T r (in_special r (proj1 R) ltac:(lia)));
    rewrite forallb_forall in T; specialize (T r' (in_special r' (proj1 R') D)); replace (r' <=? r) with false in T by lia; unfold orb, pair_ok in T;
    destruct (first_diff _ _) as [[x y]|]; [|discriminate T]; exists x, y; split; [reflexivity|]; rewrite <- reversesb_ok; destruct (reversesb html r r'), (x <? y) eqn:Q; try discriminate T; cbn [negb Bool.eqb andb] in T; lia.
  - (* r in ASCII, r' not escaped *)
    assert (P : ~ reverses html r r') by (unfold reverses, escaped_char; lia). cbn [esc_seg]. replace (r <? 128) with true by lia. replace (r' <? 128) with false by lia. replace ((r' =? 0x2028) || (r' =? 0x2029)) with false by lia.
    destruct (utf8_high r' ltac:(lia) S') as (c & u & -> & Hc).
    match goal with |- context [first_diff ?T (c :: u)] => assert (X : exists d u', T = d :: u' /\ d < 128) end.
    { destruct (EscapeModel.plain (negb html) r); [exists r, []; split; [reflexivity | exact A]|]. unfold esc_ascii, l_u00. repeat match goal with |- context [if ?b then _ else _] => destruct b end; eexists; eexists; (split; [reflexivity | lia]). }
    destruct X as (d & u' & -> & Hd). exists d, c. cbn [first_diff]. replace (d =? c) with false by lia. split; [reflexivity|]. split; [intros _; exact P | lia].
  - assert (P : ~ reverses html r r') by (unfold reverses, escaped_char; lia). cbn [esc_seg]. replace (r <? 128) with false by lia. replace ((r =? 0x2028) || (r =? 0x2029)) with true by lia. replace (r' <? 128) with false by lia. replace ((r' =? 0x2028) || (r' =? 0x2029)) with false by lia.
    destruct (utf8_high r' ltac:(lia) S') as (c & u & -> & Hc). exists 92, c. unfold l_u202. cbn [app first_diff]. replace (92 =? c) with false by lia. split; [reflexivity|]. split; [intros _; exact P | lia].
  - assert (P : ~ reverses html r r') by (unfold reverses, escaped_char; lia). cbn [esc_seg]. replace (r <? 128) with false by lia. replace ((r =? 0x2028) || (r =? 0x2029)) with true by lia. replace (r' <? 128) with false by lia. replace ((r' =? 0x2028) || (r' =? 0x2029)) with false by lia.
    destruct (utf8_high r' ltac:(lia) S') as (c & u & -> & Hc). exists 92, c. unfold l_u202. cbn [app first_diff]. replace (92 =? c) with false by lia. split; [reflexivity|]. split; [intros _; exact P | lia].
  - (* r neither ASCII nor escaped, r' escaped *)
    assert (D' : r' = 0x2028 \/ r' = 0x2029) by lia. assert (P : reverses html r r') by (unfold reverses, escaped_char; lia). cbn [esc_seg]. replace (r <? 128) with false by lia. replace ((r =? 0x2028) || (r =? 0x2029)) with false by lia.
    replace (r' <? 128) with false by lia. replace ((r' =? 0x2028) || (r' =? 0x2029)) with true by lia. destruct (utf8_high r ltac:(lia) S) as (c & u & -> & Hc). exists c, 92. unfold l_u202. cbn [app first_diff]. replace (c =? 92) with false by lia. split; [reflexivity|]. split; [lia | intros N; contradiction].
  - assert (P : ~ reverses html r r') by (unfold reverses, escaped_char; lia). cbn [esc_seg]. replace (r <? 128) with false by lia. replace (r' <? 128) with false by lia. replace ((r =? 0x2028) || (r =? 0x2029)) with false by lia. replace ((r' =? 0x2028) || (r' =? 0x2029)) with false by lia.
    destruct (utf8_first_diff r r' ltac:(lia) L ltac:(lia)) as (x & y & E & Hx). exists x, y. split; [exact E|]. split; [intros _; exact P | intros _; exact Hx].
Qed.

(** ** Strings *)
Lemma utf8_flat s rs : utf8_string s rs -> s = flat_map utf8 rs /\ Forall scalar rs.
Proof. induction 1 as [|r s rs Hr U [-> F]]; [split; [reflexivity | constructor] | split; [reflexivity | constructor; assumption]]. Qed.
Lemma escape_flat html s rs y : utf8_string s rs -> escape_text html s y -> y = flat_map (fun r => esc_seg false (negb html) (inl r)) rs.
Proof.
  intros U Y. assert (F := proj2 (utf8_flat s rs U)). assert (S := valid_utf8_segments s rs U).
  assert (X : escape_text html s (flat_map (esc_seg false (negb html)) (map inl rs))).
  { exists (map inl rs). split; [exact S|]. assert (T := esc_segs_text (negb html) (map inl rs)). rewrite Bool.negb_involutive in T. apply T. apply Forall_map. exact F. }
  rewrite (escape_text_det _ _ _ _ Y X). clear. induction rs as [|r rs IH]; [reflexivity | cbn [map flat_map]; rewrite IH; reflexivity].
Qed.
Lemma flat_diff {A} (f : A -> bytes) p r a r' b x y : first_diff (f r) (f r') = Some (x, y) -> (lexlt (flat_map f (p ++ r :: a)) (flat_map f (p ++ r' :: b)) <-> x < y).
Proof. intros D. rewrite !flat_map_app. cbn [flat_map]. apply first_diff_lex, D. Qed.
Lemma lexlt_irr a b : lexlt a b -> lexlt b a -> False.
Proof. intros [A N] [B _]. apply N, lexle_antisym; assumption. Qed.
Lemma lexle_app a t : lexle a (a ++ t). Proof. induction a as [|c a IH]; [constructor | cbn [app]; apply ll_cons, IH]. Qed.
Lemma first_differ (a b : list Z) : (exists q, b = a ++ q) \/ (exists q, a = b ++ q) \/ exists p r a' r' b', a = p ++ r :: a' /\ b = p ++ r' :: b' /\ r <> r'.
Proof.
  revert b. induction a as [|c a IH]; intros [|d b]; [left; exists []; reflexivity | left; exists (d :: b); reflexivity | right; left; exists (c :: a); reflexivity|]. destruct (Z.eq_dec c d) as [E|N]; [subst d|right; right; exists [], c, a, d, b; auto].
  destruct (IH b) as [(q & ->)|[(q & ->)|(p & r & a' & r' & b' & -> & -> & N)]]; [left; exists q; reflexivity | right; left; exists q; reflexivity | right; right; exists (c :: p), r, a', r', b'; auto].
Qed.

(** Two different strings are ordered by the first character in which they
    differ, if there is one. *)
Lemma ordered_by_char s s' p r a r' b : utf8_string s (p ++ r :: a) -> utf8_string s' (p ++ r' :: b) -> r <> r' -> (lexlt s s' <-> r < r').
Proof.
  intros U U' N. destruct (utf8_flat _ _ U) as [-> F]. destruct (utf8_flat _ _ U') as [-> F'].
  apply Forall_app in F, F'. destruct F as [_ F], F' as [_ F']. inversion F as [|? ? Sr _]; inversion F' as [|? ? Sr' _]; subst. unfold scalar in Sr, Sr'.
  destruct (Z.lt_total r r') as [L|[L|L]]; [|contradiction|].
  - destruct (utf8_first_diff r r' ltac:(lia) L ltac:(lia)) as (x & y & D & X). rewrite (flat_diff utf8 p r a r' b x y D). lia.
  - destruct (utf8_first_diff r' r ltac:(lia) L ltac:(lia)) as (x & y & D & X). split; [|lia]. intros Lt. exfalso. apply (lexlt_irr _ _ Lt). rewrite (flat_diff utf8 p r' b r a x y D). exact X.
Qed.

(** A key and a later one stay in this order when escaped, unless the first
    characters in which they differ are reversed. *)
Theorem C23_pairs html s rs s' rs' y y' : utf8_string s rs -> utf8_string s' rs' -> escape_text html s y -> escape_text html s' y' -> lexlt s s' ->
  (lexlt y y' <-> forall p r a r' b, rs = p ++ r :: a -> rs' = p ++ r' :: b -> r <> r' -> ~ reverses html r r').
Proof.
  intros U U' Y Y' L. rewrite (escape_flat _ _ _ _ U Y), (escape_flat _ _ _ _ U' Y').
  assert (K : forall p r a r' b, rs = p ++ r :: a -> rs' = p ++ r' :: b -> r <> r' ->
    (lexlt (flat_map (fun r => esc_seg false (negb html) (inl r)) rs) (flat_map (fun r => esc_seg false (negb html) (inl r)) rs') <-> ~ reverses html r r')).
  { intros p r a r' b -> -> N. assert (Lr : r < r') by (apply (ordered_by_char s s' p r a r' b U U' N), L).
    destruct (utf8_flat _ _ U) as [_ F]. destruct (utf8_flat _ _ U') as [_ F']. apply Forall_app in F, F'. destruct F as [_ F], F' as [_ F']. inversion F as [|? ? Sr _]; inversion F' as [|? ? Sr' _]; subst.
    destruct (char_diff html r r' Sr Sr' Lr) as (x & z & D & X). rewrite <- X. apply (flat_diff (fun r => esc_seg false (negb html) (inl r)) p r a r' b x z D). }
  split; [intros Ly p r a r' b E E' N; apply (K p r a r' b E E' N), Ly|]. intros Q.
  destruct (first_differ rs rs') as [(q & ->)|[(q & ->)|(p & r & a & r' & b & E & E' & N)]].
  - rewrite flat_map_app. split; [apply lexle_app|]. intros Es. rewrite <- (app_nil_r (flat_map _ rs)) in Es at 1. apply app_inv_head in Es. destruct q as [|r q].
    + rewrite app_nil_r in U'. destruct L as [_ L]. apply L. rewrite (proj1 (utf8_flat _ _ U)), (proj1 (utf8_flat _ _ U')). reflexivity.
    + cbn [flat_map] in Es. symmetry in Es. apply app_eq_nil in Es. destruct Es as [Es _]. revert Es.
      destruct (utf8_flat _ _ U') as [_ F]. apply Forall_app in F. destruct F as [_ F]. inversion F as [|? ? Sr _]; subst. cbn [esc_seg]. destruct (r <? 128) eqn:A.
      * destruct (EscapeModel.plain (negb html) r); [discriminate|]. unfold esc_ascii, l_u00. repeat match goal with |- context [if ?b then _ else _] => destruct b end; discriminate.
      * destruct ((r =? 0x2028) || (r =? 0x2029)); [discriminate|]. destruct (utf8_high r ltac:(lia) Sr) as (c & u & -> & _). discriminate.
  - exfalso. destruct L as [L N]. apply N. apply lexle_antisym; [exact L|]. rewrite (proj1 (utf8_flat _ _ U)), (proj1 (utf8_flat _ _ U')), flat_map_app. apply lexle_app.
  - apply (K p r a r' b E E' N), (Q p r a r' b E E' N).
Qed.

(** Two keys of a map that are reversed. *)
Definition reversed_keys (html : bool) (es : list (val * val)) : Prop :=
  exists s x s' x' p r a r' b, In (VStr s, x) es /\ In (VStr s', x') es /\ utf8_string s (p ++ r :: a) /\ utf8_string s' (p ++ r' :: b) /\ r < r' /\ reverses html r r'.

Lemma reverses_dec html r r' : reverses html r r' \/ ~ reverses html r r'.
Proof. rewrite <- reversesb_ok. destruct (reversesb html r r'); [left | right]; congruence. Qed.

(** A generic value is encoded as encoding/json does if and only if no map in it
    has two such keys. *)
Theorem C58_generic_keys H vcall m t w v opts o html out : host_ok H vcall -> shortest_ok (h_shortest H) -> sort_ok H -> no_methods H -> std_opts html o ->
  generic t v -> holds H m t w v -> call_opts opts = Some o -> marshal_returns H m (Some (t, w)) opts (MOk out) ->
  (std H vcall html t false false v out <-> forall es, within v es -> ~ reversed_keys html es).
Proof.
  intros OK SH SO NM So G Hh Ho R. rewrite (C58_generic H vcall m t w v opts o html out OK SH SO NM So G Hh Ho R).
  assert (Ks : forall es, within v es -> utf8_keys es).
  { clear - G. induction G as [|t v Nt G IH|b|f F|s rs U|vs Gv IH|es N Hk Gv IH]; intros es0 W; inversion W; subst; eauto. }
  split; intros Q es W; specialize (Q es W); specialize (Ks es W).
  - intros (s & x & s' & x' & p & r & a & r' & b & I & I' & U & U' & L & Rv).
    assert (Y := std_escaped html o s So (utf8_string_bytes _ _ U)). assert (Y' := std_escaped html o s' So (utf8_string_bytes _ _ U')).
    assert (Ls : lexlt s s') by (apply (ordered_by_char s s' p r a r' b U U'); lia). assert (Ly := Q s x s' x' _ _ I I' Y Y' Ls).
    apply (proj1 (C23_pairs html s _ s' _ _ _ U U' Y Y' Ls) Ly p r a r' b); [reflexivity | reflexivity | lia | exact Rv].
  - intros s x s' x' y y' I I' Y Y' Ls. destruct (Ks _ _ I) as (s0 & rs & [= <-] & U). destruct (Ks _ _ I') as (s0 & rs' & [= <-] & U').
    apply (C23_pairs html s rs s' rs' y y' U U' Y Y' Ls). intros p r a r' b -> -> N Rv. apply Q. exists s, x, s', x', p, r, a, r', b. repeat split; auto. apply (ordered_by_char s s' p r a r' b U U' N), Ls.
Qed.

(** ** Concrete cases *)
(** A quotation mark comes before A, its escape after it; a tab and a line feed
    swap as well; U+2028 is moved before every character above the backslash.
    Without HTML escaping < and = keep their order. *)
Example C23_ex_pairs : reverses true 0x22 0x41 /\ reverses true 9 10 /\ reverses false 0xE9 0x2028 /\ reverses true 0x3C 0x3D /\ ~ reverses false 0x3C 0x3D /\ ~ reverses true 0x22 0x61 /\ ~ reverses true 10 13.
Proof. rewrite <- !reversesb_ok. repeat split; try reflexivity; discriminate. Qed.
Example C23_ex_quote y y' : escape_text true [0x22] y -> escape_text true [0x41] y' -> lexlt [0x22] [0x41] /\ ~ lexlt y y'.
Proof.
  intros Y Y'. assert (L : lexlt [0x22] [0x41]) by (split; [apply ll_lt; lia | discriminate]). split; [exact L|]. intros Ly.
  apply (proj1 (C23_pairs true [0x22] [0x22] [0x41] [0x41] y y' (ascii1 0x22 ltac:(lia)) (ascii1 0x41 ltac:(lia)) Y Y' L) Ly [] 0x22 [] 0x41 []); [reflexivity | reflexivity | lia | apply reversesb_ok; reflexivity].
Qed.
(** The value of C58_ex_generic has such keys with HTML escaping only. *)
Example C58_ex_keys : reversed_keys true lt_es /\ ~ reversed_keys false lt_es.
Proof.
  split.
  - exists [60], VNil, [61], VNil, [], 60, [], 61, []. split; [left; reflexivity|]. split; [right; left; reflexivity|]. split; [apply ascii1; lia|]. split; [apply ascii1; lia|]. split; [lia|]. apply reversesb_ok. reflexivity.
  - destruct C58_ex_generic as (_ & R & S).
    apply (proj1 (C58_generic_keys flH fl_vcall _ list_t _ lt_v [Some ONoHTMLEscaping] no_html false _ fl_ok (proj1 shortest_dec_exact) fl_sort fl_no_methods no_html_std lt_generic lt_holds no_html_call R) S lt_es).
    eapply w_elem; [left; reflexivity | apply w_iface, w_here].
Qed.

Print Assumptions C23_pairs.
Print Assumptions C58_generic_keys.
