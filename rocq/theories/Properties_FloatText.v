(** C10: the exact text of a float, as in encoding/json. *)
From Verif Require Import Base Utf8 JsonSpec OptionsModel IntModel IntProof TypesModel TypesFacts FloatModel FloatProof FloatShort LeafModel LeafProof
  MemModel FieldsModel FieldsProof InstrModel ExecModel ValueModel ExecProof MarshalThm DocSpec ApiFacts ExampleHost ExampleVals ExampleConst ExampleRead Properties_Numbers Properties_Floats.

(** ** The layout of the digits of a decimal 0.d1d2... * 10^dp *)
(** Without an exponent: followed by zeros, split by a point, or after one. *)
Inductive fixed : bytes -> Z -> bytes -> Prop :=
| fx_whole ds k : fixed ds (Z.of_nat (length ds) + Z.of_nat k) (ds ++ repeat 48 k)
| fx_split i f : i <> [] -> f <> [] -> fixed (i ++ f) (Z.of_nat (length i)) (i ++ lit "." ++ f)
| fx_small ds k : fixed ds (- Z.of_nat k) (lit "0." ++ repeat 48 k ++ ds).

(** The exponent: its sign, and its digits; two at least if it is positive. *)
Inductive exponent : Z -> bytes -> Prop :=
| ex_minus l e : 0 < e -> int_lit l e -> exponent (- e) (lit "e-" ++ l)
| ex_plus l e : 10 <= e -> int_lit l e -> exponent e (lit "e+" ++ l)
| ex_one l e : 0 <= e < 10 -> int_lit l e -> exponent e (lit "e+0" ++ l).

Inductive scientific : bytes -> Z -> bytes -> Prop :=
| sc_one d dp x : exponent (dp - 1) x -> scientific [d] dp (d :: x)
| sc_more d ds dp x : ds <> [] -> exponent (dp - 1) x -> scientific (d :: ds) dp (d :: lit "." ++ ds ++ x).

(** The value is below 1e-6 or at least 1e21. *)
Definition far (b : bool) (m : positive) (e : Z) : Prop := dyadic_lt (Zpos m, e) (lo_limit b) \/ ~ dyadic_lt (Zpos m, e) (hi_limit b).

Inductive float_spelled (shortest : bool -> positive -> Z -> bytes * Z) (b : bool) : fval -> bytes -> Prop :=
| fs_zero : float_spelled shortest b (FZero false) (lit "0")
| fs_minus_zero : float_spelled shortest b (FZero true) (lit "-0")
| fs_fixed m e ds dp x : shortest b m e = (ds, dp) -> ~ far b m e -> fixed ds dp x -> float_spelled shortest b (FFin false m e) x
| fs_scientific m e ds dp x : shortest b m e = (ds, dp) -> far b m e -> scientific ds dp x -> float_spelled shortest b (FFin false m e) x
| fs_negative m e x : float_spelled shortest b (FFin false m e) x -> float_spelled shortest b (FFin true m e) (lit "-" ++ x).

Lemma digits_lit a : 0 <= a < 1000 -> int_lit (if a <? 10 then [48 + a] else if a <? 100 then [48 + a / 10; 48 + a mod 10] else [48 + a / 100; 48 + a / 10 mod 10; 48 + a mod 10]) a.
Proof.
  intros Ha. destruct (a =? 0) eqn:E0; [assert (a = 0) by lia; subst; constructor|].
  assert (G : forall d ds, 49 <= d <= 57 -> Forall digit ds -> a = dval (d :: ds) -> int_lit (d :: ds) a).
  { intros d ds Hd Hf ->. apply il_pos; [constructor; assumption | intros [= -> ->]; lia]. }
  destruct (a <? 10) eqn:E1; [|destruct (a <? 100) eqn:E2]; apply G; try lia; unfold digit; repeat (apply Forall_cons; [lia|]); try apply Forall_nil; unfold dval; cbn [fold_left]; lia.
Qed.

Lemma exponent_text e x : -1000 < e < 1000 -> exponent e x -> exp_cleanup (101 :: fmt_exp e) = x.
Proof.
  intros He Hx. unfold fmt_exp. assert (C3 : forall x y z, exp_cleanup [101; x; y; z] = if (x =? 45) && (y =? 48) then [101; x; z] else [101; x; y; z]) by (intros u y z; exact (exp_cleanup_3 [] 101 u y z)).
  assert (C4 : forall c u y z, c <> 101 -> exp_cleanup [101; c; u; y; z] = [101; c; u; y; z]).
  { intros c u y z Hc. assert (X := exp_cleanup_3 [101] c u y z). replace (c =? 101) with false in X by lia. exact X. }
  assert (L : forall l a, int_lit l a -> 0 <= a < 1000 -> l = (if a <? 10 then [48 + a] else if a <? 100 then [48 + a / 10; 48 + a mod 10] else [48 + a / 100; 48 + a / 10 mod 10; 48 + a mod 10])).
  { intros l a Hl Ha. eapply C09_literal_unique; [exact Hl | apply digits_lit, Ha]. }
  destruct Hx as [l e Hp Hl|l e Hp Hl|l e Hp Hl]; rewrite (L _ _ Hl ltac:(lia)); clear L Hl.
  - replace (Z.abs (- e)) with e by lia. replace (- e <? 0) with true by lia. destruct (e <? 10) eqn:E1; [|destruct (e <? 100) eqn:E2].
    + rewrite C3. reflexivity.
    + rewrite C3. destruct (48 + e / 10 =? 48) eqn:E3; [lia | reflexivity].
    + rewrite C4 by lia. reflexivity.
  - replace (Z.abs e) with e by lia. replace (e <? 0) with false by lia. destruct (e <? 10) eqn:E1; [lia|]. destruct (e <? 100) eqn:E2.
    + rewrite C3. reflexivity.
    + rewrite C4 by lia. reflexivity.
  - replace (Z.abs e) with e by lia. replace (e <? 0) with false by lia. replace (e <? 10) with true by lia. rewrite C3. reflexivity.
Qed.

Lemma fmt_exp_len e : (3 <= length (fmt_exp e))%nat.
Proof. unfold fmt_exp. destruct (_ <? 10); [|destruct (_ <? 100)]; cbn; lia. Qed.

Lemma scientific_text ds dp x : -400 < dp < 400 -> scientific ds dp x -> forall dst, exp_cleanup (dst ++ fmtE ds dp) = dst ++ x.
Proof.
  intros Hd Hx dst. assert (Ln := fmt_exp_len (dp - 1)). destruct Hx as [d dp x Hx|d ds dp x Hn Hx]; cbn [fmtE].
  - change (d :: 101 :: fmt_exp (dp - 1)) with ([d] ++ 101 :: fmt_exp (dp - 1)). rewrite app_assoc, exp_cleanup_app by (cbn [length]; lia). rewrite (exponent_text (dp - 1) x ltac:(lia) Hx), <- app_assoc. reflexivity.
  - destruct ds as [|d' ds]; [congruence|]. change (d :: 46 :: (d' :: ds) ++ 101 :: fmt_exp (dp - 1)) with ((d :: 46 :: d' :: ds) ++ 101 :: fmt_exp (dp - 1)).
    rewrite app_assoc, exp_cleanup_app by (cbn [length]; lia). rewrite (exponent_text (dp - 1) x ltac:(lia) Hx), <- app_assoc. reflexivity.
Qed.

Lemma fixed_text ds dp x : ds <> [] -> fixed ds dp x -> fmtF ds dp = x.
Proof.
  intros Hn Hx. unfold fmtF. destruct Hx as [ds k|i f Hi Hf|ds k].
  - assert (L : (0 < length ds)%nat) by (destruct ds; [congruence | cbn; lia]). replace (0 <? Z.of_nat (length ds) + Z.of_nat k) with true by lia.
    replace (Z.to_nat (Z.of_nat (length ds) + Z.of_nat k)) with (length ds + k)%nat by lia. rewrite skipn_all2, firstn_all2 by lia. replace (length ds + k - length ds)%nat with k by lia. destruct ds; reflexivity.
  - assert (L : (0 < length i)%nat) by (destruct i; [congruence | cbn; lia]). replace (0 <? Z.of_nat (length i)) with true by lia. rewrite Nat2Z.id, firstn_app, skipn_app, firstn_all, skipn_all, Nat.sub_diag, app_length. cbn [firstn skipn app].
    rewrite app_nil_r. replace (length i - (length i + length f))%nat with 0%nat by lia. cbn [repeat]. rewrite app_nil_r. destruct i; [congruence|]. destruct f; [congruence|]. reflexivity.
  - replace (0 <? - Z.of_nat k) with false by lia. rewrite Z.opp_involutive, Nat2Z.id. destruct ds as [|d ds]; [congruence|]. destruct (repeat 48 k ++ d :: ds) eqn:Er; [destruct (repeat 48 k); discriminate|]. reflexivity.
Qed.

(** A nonempty list of digits has both texts. *)
Lemma exponent_ex e : exists x, exponent e x.
Proof.
  destruct (append_int_spec [] (Z.abs e)) as (l & _ & Hl). destruct (Z_lt_le_dec e 0) as [N|N].
  - exists (lit "e-" ++ l). replace e with (- Z.abs e) by lia. replace (Z.abs (- Z.abs e)) with (Z.abs e) in Hl by lia. apply ex_minus; [lia | exact Hl].
  - replace (Z.abs e) with e in Hl by lia. destruct (Z_lt_le_dec e 10); [exists (lit "e+0" ++ l); apply ex_one | exists (lit "e+" ++ l); apply ex_plus]; auto; lia.
Qed.
Lemma scientific_ex ds dp : ds <> [] -> exists x, scientific ds dp x.
Proof.
  intros Hn. destruct (exponent_ex (dp - 1)) as [x Hx]. destruct ds as [|d [|d' ds]]; [congruence | eexists; apply sc_one; exact Hx | eexists; apply sc_more; [discriminate | exact Hx]].
Qed.
Lemma fixed_ex ds dp : ds <> [] -> exists x, fixed ds dp x.
Proof.
  intros Hn. destruct (Z_le_gt_dec dp 0) as [N|N]; [|destruct (Z_le_gt_dec (Z.of_nat (length ds)) dp) as [M|M]].
  - exists (lit "0." ++ repeat 48 (Z.to_nat (- dp)) ++ ds). assert (X := fx_small ds (Z.to_nat (- dp))). rewrite Z2Nat.id, Z.opp_involutive in X by lia. exact X.
  - exists (ds ++ repeat 48 (Z.to_nat dp - length ds)). assert (X := fx_whole ds (Z.to_nat dp - length ds)). replace (Z.of_nat (length ds) + Z.of_nat (Z.to_nat dp - length ds)) with dp in X by lia. exact X.
  - exists (firstn (Z.to_nat dp) ds ++ lit "." ++ skipn (Z.to_nat dp) ds). assert (X := fx_split (firstn (Z.to_nat dp) ds) (skipn (Z.to_nat dp) ds)). rewrite firstn_skipn, firstn_length in X.
    replace (Z.of_nat (Nat.min (Z.to_nat dp) (length ds))) with dp in X by lia. apply X.
    + intros Z0. assert (L := f_equal (@length Z) Z0). rewrite firstn_length in L. cbn in L. lia.
    + intros Z0. assert (L := f_equal (@length Z) Z0). rewrite skipn_length in L. cbn in L. lia.
Qed.

(** ** What appendFloat writes *)
Lemma appendFloat_neg sh b m e x : appendFloat sh [] (FFin false m e) b = Ret x None -> shortest_ok sh -> appendFloat sh [] (FFin true m e) b = Ret (45 :: x) None.
Proof.
  unfold appendFloat. change (use_exp b (FFin true m e)) with (use_exp b (FFin false m e)). unfold fmt_float. destruct (sh b m e) as [ds dp] eqn:Es. cbn [app]. intros Hr SH. destruct (SH _ _ _ _ _ Es) as (_ & (d & t & Ed & _) & _ & _).
  destruct (use_exp b (FFin false m e)); injection Hr as <-; [|reflexivity]. change (45 :: fmtE ds dp) with ([45] ++ fmtE ds dp). rewrite exp_cleanup_app; [reflexivity|].
  rewrite Ed. cbn [fmtE]. assert (L := fmt_exp_len (dp - 1)). destruct t; cbn [length]; rewrite ?app_length; cbn [length]; lia.
Qed.
Lemma spelled_append sh b f x : shortest_ok sh -> float_spelled sh b f x -> appendFloat sh [] f b = Ret x None.
Proof.
  intros SH. induction 1 as [| |m e ds dp x Es Hf Hx|m e ds dp x Es Hf Hx|m e x Hx IH]; try reflexivity; [| |exact (appendFloat_neg _ _ _ _ _ IH SH)];
    destruct (SH _ _ _ _ _ Es) as (_ & (d & t & Ed & _) & _ & Hr); unfold appendFloat.
  - replace (use_exp b (FFin false m e)) with false by (symmetry; apply not_true_iff_false; rewrite use_exp_spec; exact Hf). unfold fmt_float. rewrite Es. cbn [app]. rewrite (fixed_text ds dp x ltac:(rewrite Ed; discriminate) Hx). reflexivity.
  - replace (use_exp b (FFin false m e)) with true by (symmetry; apply use_exp_spec; exact Hf). unfold fmt_float. rewrite Es. cbn [app]. assert (X := scientific_text ds dp x Hr Hx []). cbn [app] in X. rewrite X. reflexivity.
Qed.
Lemma spelled_ex sh b f : shortest_ok sh -> (forall neg, f <> FInf neg) -> f <> FNaN -> exists x, float_spelled sh b f x.
Proof.
  intros SH Hi Hn. assert (P : forall m e, exists x, float_spelled sh b (FFin false m e) x).
  { intros m e. destruct (sh b m e) as [ds dp] eqn:Es. destruct (SH _ _ _ _ _ Es) as (_ & (d & t & Ed & _) & _ & _). assert (Nn : ds <> []) by (rewrite Ed; discriminate).
    destruct (use_exp b (FFin false m e)) eqn:Eu.
    - destruct (scientific_ex ds dp Nn) as [x Hx]. exists x. eapply fs_scientific; eauto. apply (use_exp_spec b false). exact Eu.
    - destruct (fixed_ex ds dp Nn) as [x Hx]. exists x. eapply fs_fixed; eauto. unfold far. rewrite <- (use_exp_spec b false). congruence. }
  destruct f as [|neg|[]|[] m e]; [congruence | destruct (Hi neg eq_refl) | eexists; apply fs_minus_zero | eexists; apply fs_zero | | apply P].
  destruct (P m e) as [x Hx]. exists (lit "-" ++ x). apply fs_negative. exact Hx.
Qed.
Lemma append_spelled sh b f x : shortest_ok sh -> appendFloat sh [] f b = Ret x None -> float_spelled sh b f x.
Proof.
  intros SH Hr. destruct (spelled_ex sh b f SH) as [y Hy]; [intros neg ->; discriminate Hr | intros ->; discriminate Hr|]. rewrite (spelled_append sh b f y SH Hy) in Hr. injection Hr as <-. exact Hy.
Qed.

(** ** C10
    The bytes returned are that text, and a value other than NaN and the
    infinities has one. *)
Theorem C10_text : forall H vcall m t w b f opts o out, host_ok H vcall -> shortest_ok (h_shortest H) -> under (h_env H) t = TFloat b -> DocSpec.plain H t false ->
  holds H m t w (VFloat f) -> call_opts opts = Some o ->
  (marshal_returns H m (Some (t, w)) opts (MOk out) <-> float_spelled (h_shortest H) b f out).
Proof.
  intros H vcall m t w b f opts o out OK SH U P Hr Ho. assert (Ht := holds_tok _ _ _ _ _ Hr).
  destruct (appendFloat (h_shortest H) [] f b) as [x e| |] eqn:Ea.
  - rewrite (marshal_iff H vcall OK m t w (VFloat f) opts o x e (MOk out) Hr Ho).
    2: { eapply encodes_float; eauto. }
    split.
    + destruct e; [discriminate|]. intros [= ->]. apply append_spelled; assumption.
    + intros Hx. rewrite (spelled_append _ _ _ _ SH Hx) in Ea. injection Ea as -> <-. reflexivity.
  - unfold appendFloat in Ea. destruct f; discriminate.
  - unfold appendFloat in Ea. destruct f; discriminate.
Qed.

Definition big : fval := FFin false 6103515625000000 34.
Example C10_text_big : float_spelled shortest_dec true big (lit "1.048576e+26").
Proof.
  apply (fs_scientific _ _ _ _ (lit "1048576") 27); [vm_compute; reflexivity | |].
  - right. vm_compute. discriminate.
  - apply (sc_more 49 (lit "048576") 27 (lit "e+26")); [discriminate|]. apply (ex_plus (lit "26")); [lia|]. apply (il_pos [50; 54]); [constructor; [lia | apply Forall_cons; [unfold digit; lia | apply Forall_nil]] | discriminate].
Qed.
Example C10_text_big_out : marshal_returns flH (cell_mem (CFloat true big)) (Some (TFloat true, 100)) [] (MOk (lit "1.048576e+26")).
Proof.
  apply (C10_text flH fl_vcall _ (TFloat true) 100 true big [] default_opts (lit "1.048576e+26") fl_ok (proj1 shortest_dec_exact) eq_refl (conj eq_refl eq_refl) (fl_float true big) eq_refl). exact C10_text_big.
Qed.
(** -1e-7, the nearest float64. *)
Definition small : fval := FFin true 7555786372591432 (-76).
Example C10_text_small : marshal_returns flH (cell_mem (CFloat true small)) (Some (TFloat true, 100)) [] (MOk (lit "-1e-7")).
Proof.
  apply (C10_text flH fl_vcall _ (TFloat true) 100 true small [] default_opts (lit "-1e-7") fl_ok (proj1 shortest_dec_exact) eq_refl (conj eq_refl eq_refl) (fl_float true small) eq_refl).
  apply (fs_negative _ _ _ _ (lit "1e-7")). apply (fs_scientific _ _ _ _ (lit "1") (-6)); [vm_compute; reflexivity | left; vm_compute; reflexivity|].
  apply (sc_one 49 (-6) (lit "e-7")). apply (ex_minus (lit "7") 7); [lia|]. apply (il_pos [55]); [constructor; [lia | apply Forall_nil] | discriminate].
Qed.
Example C10_text_tenth : float_spelled shortest_dec true tenth (lit "-0.1").
Proof.
  apply (fs_negative _ _ _ _ (lit "0.1")). apply (fs_fixed _ _ _ _ (lit "1") 0); [vm_compute; reflexivity | intros [X|X]; [vm_compute in X; discriminate X | apply X; vm_compute; reflexivity] | apply (fx_small (lit "1") 0)].
Qed.

Print Assumptions C10_text.
