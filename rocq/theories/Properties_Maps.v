(** C22-C26: maps and sync.Map. *)
From Coq Require Import Permutation Sorted.
From Verif Require Import Base Utf8 JsonSpec OptionsModel EscapeModel EscapeProof JsonParse IntModel IntProof TypesModel TypesFacts TimeModel FloatModel FloatProof LeafModel LeafProof MemModel FieldsModel
  FieldsProof InstrModel ExecModel ValueModel ExecProof HostFacts VencFacts MarshalThm DocSpec EntriesFacts DocLeaf PartFacts DocProof SafeProof ApiFacts PartsThm ShapeThm CallFacts ShuffleThm OrderThm
  ExampleHost ExampleConst ExampleRead Properties_Options Properties_Strings Properties_Numbers Properties_Members.

(** Lexicographic order of bytes. *)
Inductive lexle : bytes -> bytes -> Prop :=
| ll_nil b : lexle [] b
| ll_lt x y a b : x < y -> lexle (x :: a) (y :: b)
| ll_cons x a b : lexle a b -> lexle (x :: a) (x :: b).

Lemma key_le_lex a : forall b, key_le a b -> lexle a b.
Proof.
  unfold key_le. induction a as [|x a IH]; intros [|y b] Hb; cbn in Hb; [apply ll_nil | apply ll_nil | discriminate|].
  destruct (y <? x) eqn:E1; [discriminate|]. destruct (x =? y) eqn:E2.
  - assert (x = y) by lia. subst y. apply ll_cons, IH. rewrite Z.eqb_refl in Hb. exact Hb.
  - apply ll_lt. lia.
Qed.

Lemma sorted_impl {A} (R S : A -> A -> Prop) l : (forall a b, R a b -> S a b) -> StronglySorted R l -> StronglySorted S l.
Proof. intros Hi. induction 1 as [|a l Hs IH Hf]; constructor; [exact IH|]. eapply Forall_impl; [|exact Hf]. intros b. apply Hi. Qed.

(** Only maps with supported keys are encoded. *)
Lemma map_key_ok H vcall o t ca q kt et es out : DocSpec.plain H t ca -> under (h_env H) t = TMap kt et -> bytes_of H vcall o (t, ca, q, VMap es) out -> key_ok H kt = true.
Proof.
  intros [P1 P2] U [n Hn]. destruct n as [|n]; [discriminate|]. cbn [venc] in Hn. rewrite P1, P2 in Hn. unfold vkind in Hn. rewrite U in Hn. destruct (key_ok H kt); [reflexivity | discriminate].
Qed.

(** ** C22: one member per entry, in the order of the encoded keys *)
Theorem C22_members H vcall m t w v opts o out mt ca q kt et es : host_ok H vcall -> sort_ok H ->
  call H m t w v opts o -> marshal_returns H m (Some (t, w)) opts (MOk out) -> has (o_flags o) unsortedMap = false ->
  inner H o (t, is_ptr H t, false, v) (mt, ca, q, VMap es) -> DocSpec.plain H mt ca -> under (h_env H) mt = TMap kt et ->
  exists kvs kvs', Forall2 (entry_bytes H vcall o kt et) es kvs /\ Permutation kvs kvs' /\
    StronglySorted (fun a b => lexle (sort_key (fst a)) (sort_key (fst b))) kvs' /\ infix (123 :: join_members kvs' ++ [125]) out.
Proof.
  intros OK SO C R Srt Hi P U. destruct (call_inner H vcall OK m t w v opts o C out _ SO R Hi) as (b & Hb & Hx).
  destruct (map_bytes H vcall o SO mt ca q kt et es b P U (map_key_ok H vcall o mt ca q kt et es b P U Hb) Hb) as (kvs & Hf & kvs' & Hp & -> & Hs). rewrite Srt in Hs.
  exists kvs, kvs'. split; [exact Hf|]. split; [exact Hp|]. split; [|exact Hx]. revert Hs. apply sorted_impl. intros a c. apply key_le_lex.
Qed.

Theorem C22_sync_members H vcall m t w v opts o out ca q es : host_ok H vcall -> sort_ok H ->
  call H m t w v opts o -> marshal_returns H m (Some (t, w)) opts (MOk out) -> has (o_flags o) unsortedMap = false ->
  inner H o (t, is_ptr H t, false, v) (TSyncMap, ca, q, VSync es) ->
  exists kvs kvs', Forall2 (sync_entry_bytes H vcall o) es kvs /\ Permutation kvs kvs' /\
    StronglySorted (fun a b => lexle (sort_key (fst a)) (sort_key (fst b))) kvs' /\ infix (123 :: join_members kvs' ++ [125]) out.
Proof.
  intros OK SO C R Srt Hi. destruct (call_inner H vcall OK m t w v opts o C out _ SO R Hi) as (b & Hb & Hx).
  destruct (sync_bytes H vcall o SO ca q es b Hb) as (kvs & Hf & kvs' & Hp & -> & Hs). rewrite Srt in Hs.
  exists kvs, kvs'. split; [exact Hf|]. split; [exact Hp|]. split; [|exact Hx]. revert Hs. apply sorted_impl. intros a c. apply key_le_lex.
Qed.

(** If no map in the value has two entries with the same encoded key, another
    iteration order, anywhere in the value, gives the same bytes. *)
Theorem C22_order_independent H vcall m w m' w' t v v' opts o out : host_ok H vcall -> sort_ok H -> insensitive vcall ->
  call H m t w v opts o -> call H m' t w' v' opts o -> has (o_flags o) unsortedMap = false -> shuffle v v' ->
  all_distinct H vcall o (t, is_ptr H t, false, v) ->
  marshal_returns H m (Some (t, w)) opts (MOk out) -> marshal_returns H m' (Some (t, w')) opts (MOk out).
Proof.
  intros OK SO Ins C C' Srt Hs Hd R. apply (bytes_call H vcall OK m' t w' v' opts o C'). eapply bytes_shuffle; eauto. eapply call_bytes; eauto.
Qed.

Lemma shuffle_sym v : forall v', shuffle v v' -> shuffle v' v.
Proof.
  remember (S (vsize v)) as s eqn:Es. assert (Hs : (vsize v < s)%nat) by lia. clear Es. revert v Hs.
  induction s as [|s IH]; intros v Hs v' Ha; [lia|].
  assert (L : forall vs vs', (forall v, In v vs -> (vsize v < s)%nat) -> Forall2 shuffle vs vs' -> Forall2 shuffle vs' vs).
  { intros vs vs' G Hf. induction Hf as [|x x' vs vs' Hx _ IHf]; constructor; [apply IH; [apply G; left; reflexivity | exact Hx] | apply IHf; intros y Hy; apply G; right; exact Hy]. }
  assert (L2 : forall es es1 es2 : list (val * val), (S (fold_right (fun kv n => (vsize (fst kv) + vsize (snd kv) + n)%nat) 0%nat es) < S s)%nat -> Permutation es es1 ->
    Forall2 (fun a b => shuffle (fst a) (fst b) /\ shuffle (snd a) (snd b)) es1 es2 -> exists es3, Permutation es2 es3 /\ Forall2 (fun a b => shuffle (fst a) (fst b) /\ shuffle (snd a) (snd b)) es3 es).
  { intros es es1 es2 Hv Hp Hf. assert (G : forall a, In a es1 -> (vsize (fst a) < s /\ vsize (snd a) < s)%nat).
    { intros [k x] Ha'. apply (Permutation_in _ (Permutation_sym Hp)) in Ha'. assert (X := vsize_entry _ _ _ Ha'). cbn [fst snd]. lia. }
    destruct (Forall2_perm _ _ _ (Permutation_sym Hp) _ Hf) as (es3 & A1 & A2). exists es3. split; [exact A2|].
    assert (G' : forall a, In a es -> (vsize (fst a) < s /\ vsize (snd a) < s)%nat) by (intros a Ha'; apply G; eapply Permutation_in; eauto).
    clear - A1 G' IH. induction A1 as [|a b l l' [H1 H2] _ IHf]; constructor; [|apply IHf; intros y Hy; apply G'; right; exact Hy].
    destruct (G' a (or_introl eq_refl)) as [G1 G2]. split; apply IH; assumption. }
  destruct Ha as [ | | |vs vs' Hf|vs vs' Hf|vs vs' Hf|es es1 es2 Hp Hf|es es1 es2 Hp Hf]; cbn [vsize] in Hs.
  - apply sh_refl.
  - constructor. apply IH; [lia | assumption].
  - constructor. apply IH; [lia | assumption].
  - constructor. apply L; [intros x Hx; assert (X := vsize_in _ _ Hx); lia | exact Hf].
  - constructor. apply L; [intros x Hx; assert (X := vsize_in _ _ Hx); lia | exact Hf].
  - constructor. apply L; [intros x Hx; assert (X := vsize_in _ _ Hx); lia | exact Hf].
  - destruct (L2 es es1 es2 Hs Hp Hf) as (es3 & A1 & A2). econstructor; eauto.
  - destruct (L2 es es1 es2 Hs Hp Hf) as (es3 & A1 & A2). econstructor; eauto.
Qed.

(** In both directions, when distinctness is known of both orders. *)
Corollary C22_order_irrelevant H vcall m w m' w' t v v' opts o out : host_ok H vcall -> sort_ok H -> insensitive vcall ->
  call H m t w v opts o -> call H m' t w' v' opts o -> has (o_flags o) unsortedMap = false -> shuffle v v' ->
  all_distinct H vcall o (t, is_ptr H t, false, v) -> all_distinct H vcall o (t, is_ptr H t, false, v') ->
  marshal_returns H m (Some (t, w)) opts (MOk out) <-> marshal_returns H m' (Some (t, w')) opts (MOk out).
Proof.
  intros OK SO Ins C C' Srt Hs D D'. split; [eapply C22_order_independent | eapply (C22_order_independent H vcall m' w' m w t v' v)]; eauto using shuffle_sym.
Qed.

Lemma sort_key_quoted b : sort_key (34 :: b ++ [34]) = b.
Proof.
  unfold sort_key. cbn [length skipn]. rewrite app_length. cbn [length]. replace (S (length b + 1) - 2)%nat with (length b) by lia. rewrite firstn_app, firstn_all, Nat.sub_diag. cbn. apply app_nil_r.
Qed.

(** Distinct strings that are valid UTF-8 have distinct encodings. *)
Lemma string_key_inj o s1 s2 rs1 rs2 : utf8_string s1 rs1 -> utf8_string s2 rs2 -> bytes_ok s1 -> bytes_ok s2 ->
  sort_key (encode_string [] s1 o) = sort_key (encode_string [] s2 o) -> s1 = s2.
Proof.
  intros U1 U2 B1 B2 Hk. unfold encode_string in Hk. rewrite !appendEscapedBytes_app in Hk by assumption. cbn [app] in Hk.
  rewrite !sort_key_quoted in Hk. destruct (has (o_flags o) noStringEscaping) eqn:En.
  - unfold escaped, appendEscapedBytes, appendEscapedBytes_opt in Hk. rewrite En in Hk. exact Hk.
  - assert (S1 := valid_utf8_segments _ _ U1). assert (S2 := valid_utf8_segments _ _ U2).
    rewrite (escaped_segments o s1 _ B1 S1 En), (escaped_segments o s2 _ B2 S2 En) in Hk.
    assert (J1 := escaped_jchars (has (o_flags o) noUTF8Coercion) (has (o_flags o) noHTMLEscaping) _ _ B1 S1).
    assert (J2 := escaped_jchars (has (o_flags o) noUTF8Coercion) (has (o_flags o) noHTMLEscaping) _ _ B2 S2). rewrite Hk in J1. assert (J := jchars_det _ _ _ _ J1 J2).
    apply (C01_distinct s1 s2 rs1 rs2 U1 U2). clear - J.
    assert (Q : forall rs, flat_map (seg_units (has (o_flags o) noUTF8Coercion)) (map inl rs) = flat_map utf16 rs) by (induction rs as [|r rs IH]; [reflexivity | cbn [map flat_map seg_units]; rewrite IH; reflexivity]).
    rewrite !Q in J. exact J.
Qed.

(** So maps keyed by distinct valid strings satisfy the condition of
    [C22_order_independent]. *)
Theorem C22_string_keys H vcall o mt ca q kt et es : under (h_env H) mt = TMap kt et -> isString (h_env H) kt = true ->
  (forall k x, In (k, x) es -> exists s rs, k = VStr s /\ bytes_ok s /\ utf8_string s rs) -> NoDup (map fst es) -> distinct_keys H vcall o (mt, ca, q, VMap es).
Proof.
  intros U Hs Hv Hn. split; [|intros es' [=]]. intros es' kt' et' [= <-] _ U' _ kvs Hf. assert (kt' = kt /\ et' = et) as [-> ->] by (split; congruence). clear U U'.
  induction Hf as [|[k x] kv es kvs [Hk _] Hf IH]; [constructor|]. cbn [map fst] in *. inversion Hn as [|? ? N1 N2]; subst. constructor; [|apply IH; [intros; eapply Hv; right; eassumption | exact N2]].
  intros Hi. apply N1. clear IH N1 N2 Hn. assert (Q : forall k kb, key_bytes H vcall o kt false k kb -> exists s, k = VStr s /\ kb = encode_string [] s o).
  { intros k0 kb [(_ & s & -> & ->)|[(C & _)|(C & _)]]; [eauto | congruence | congruence]. }
  destruct (Q _ _ Hk) as (s & -> & Ek). destruct (Hv _ _ (or_introl eq_refl)) as (s' & rs & [= <-] & B & V).
  assert (Hv' : forall k x, In (k, x) es -> exists s rs, k = VStr s /\ bytes_ok s /\ utf8_string s rs) by (intros; eapply Hv; right; eassumption). clear Hv.
  induction Hf as [|[k1 x1] kv1 es kvs [Hk1 _] Hf IH]; [destruct Hi|]. cbn [map fst] in *. destruct Hi as [Hi|Hi]; [|right; apply IH; [exact Hi | intros; eapply Hv'; right; eassumption]]. left.
  destruct (Q _ _ Hk1) as (s1 & -> & Ek1). destruct (Hv' _ _ (or_introl eq_refl)) as (s1' & rs1 & [= <-] & B1 & V1). rewrite Ek, Ek1 in Hi. f_equal. eapply string_key_inj; eauto.
Qed.

(** ** C23: the order of encoding/json *)
Definition raw_key (e : val * val) : bytes := match fst e with VStr s => s | _ => [] end.

(** The members in increasing order of the strings themselves. *)
Definition in_key_order H vcall o kt et (es : list (val * val)) (out : bytes) : Prop :=
  exists es' kvs, Permutation es es' /\ StronglySorted (fun a b => lexle (raw_key a) (raw_key b)) es' /\ Forall2 (entry_bytes H vcall o kt et) es' kvs /\ infix (123 :: join_members kvs ++ [125]) out.

Definition json_order H vcall : Prop :=
  forall m t w v opts o out mt ca q kt et es, call H m t w v opts o -> marshal_returns H m (Some (t, w)) opts (MOk out) -> has (o_flags o) unsortedMap = false ->
    inner H o (t, is_ptr H t, false, v) (mt, ca, q, VMap es) -> DocSpec.plain H mt ca -> under (h_env H) mt = TMap kt et -> isString (h_env H) kt = true ->
    in_key_order H vcall o kt et es out.

(** map[string]int{"\n": 1, "A": 2} *)
Definition mapH : host := plainH [].
Lemma map_ok : host_ok mapH plainV. Proof. apply plainH_ok. vm_compute. reflexivity. Qed.
Definition tmap : typ := TMap TString (TInt KInt).
Definition nl_v : val := VMap [(VStr [10], VInt 1); (VStr (lit "A"), VInt 2)].
Lemma nl_call : call mapH (mem_of mapH tmap nl_v) tmap (word_of mapH tmap nl_v) nl_v [] default_opts.
Proof. apply (plain_call _ 10); vm_compute; reflexivity. Qed.
Lemma nl_out : marshal_returns mapH (mem_of mapH tmap nl_v) (Some (tmap, word_of mapH tmap nl_v)) [] (MOk (bs "{""A"":2,""~n"":1}")).
Proof. exists 12%nat; split; [vm_compute; reflexivity | discriminate]. Qed.

Lemma int_bytes H vcall o t k ca n b : DocSpec.plain H t ca -> under (h_env H) t = TInt k -> bytes_of H vcall o (t, ca, false, VInt n) b -> b = encode_int k n [].
Proof.
  intros [P1 P2] U [f Hn]. destruct f as [|f]; [discriminate|]. cbn [venc] in Hn. rewrite P1, P2 in Hn. unfold vkind in Hn. rewrite U in Hn. injection Hn as <-. reflexivity.
Qed.

Theorem C23_json_order_refuted : host_ok mapH plainV /\ sort_ok mapH /\ ~ json_order mapH plainV.
Proof.
  split; [exact map_ok|]. split; [apply constH_sort|]. intros J.
  destruct (J _ _ _ _ _ _ _ tmap false false TString (TInt KInt) [(VStr [10], VInt 1); (VStr (lit "A"), VInt 2)] nl_call nl_out eq_refl (inner_refl _ _ _) (conj eq_refl eq_refl) eq_refl eq_refl) as (es' & kvs & Hp & Hs & Hf & Hx).
  assert (Ee : es' = [(VStr [10], VInt 1); (VStr (lit "A"), VInt 2)]).
  { assert (L := Permutation_length Hp). destruct es' as [|a [|b [|]]]; try discriminate L. inversion Hs as [|? ? _ F]; subst. inversion F as [|? ? O _]; subst.
    destruct (Permutation_length_2_inv Hp) as [<-|E2]; [reflexivity|]. injection E2 as -> ->. cbn in O. inversion O; lia. }
  subst es'. inversion Hf as [|? kv1 ? kvs1 [K1 V1] Hf1]; subst. inversion Hf1 as [|? kv2 ? kvs2 [K2 V2] Hf2]; subst. inversion Hf2; subst.
  assert (Q : forall s kb, key_bytes mapH plainV default_opts TString false (VStr s) kb -> kb = encode_string [] s default_opts).
  { intros s kb [(_ & s' & [= <-] & ->)|[(C & _)|(C & _)]]; [reflexivity | discriminate | discriminate]. }
  destruct kv1 as [k1 v1], kv2 as [k2 v2]. cbn [fst snd] in *. apply Q in K1, K2. apply (int_bytes _ _ _ _ KInt) in V1; [|split; reflexivity | reflexivity].
  apply (int_bytes _ _ _ _ KInt) in V2; [|split; reflexivity | reflexivity]. subst. apply infixb_complete in Hx. vm_compute in Hx. discriminate.
Qed.

(** A key written as it is: no escaping at all, or no character to escape. *)
Definition needs_no_escape (o : encOpts) (s : bytes) : Prop :=
  has (o_flags o) noStringEscaping = true \/
  exists rs, utf8_string s rs /\ Forall (fun r => 32 <= r /\ r <> 34 /\ r <> 92 /\ (has (o_flags o) noHTMLEscaping = false -> r <> 60 /\ r <> 62 /\ r <> 38) /\
    (has (o_flags o) noUTF8Coercion = false -> r <> 0x2028 /\ r <> 0x2029)) rs.

Lemma needs_no_escape_same o s : bytes_ok s -> needs_no_escape o s -> encode_string [] s o = 34 :: s ++ [34].
Proof.
  intros B Hn. unfold encode_string. rewrite appendEscapedBytes_app by assumption. cbn [app]. f_equal. f_equal.
  destruct (has (o_flags o) noStringEscaping) eqn:En; [unfold escaped, appendEscapedBytes, appendEscapedBytes_opt; rewrite En; reflexivity|].
  destruct Hn as [C|(rs & U & F)]; [congruence|]. rewrite (escaped_segments o s _ B (valid_utf8_segments _ _ U) En). clear B.
  induction U as [|r s rs Hr _ IH]; [reflexivity|]. inversion F as [|? ? (F1 & F2 & F3 & F4 & F5) F']; subst. cbn [map flat_map]. rewrite (IH F'). f_equal.
  unfold esc_seg. destruct (r <? 0x80) eqn:E1.
  - assert (Ep : EscapeModel.plain (has (o_flags o) noHTMLEscaping) r = true).
    { unfold EscapeModel.plain. destruct (has (o_flags o) noHTMLEscaping); [lia|]. specialize (F4 eq_refl). lia. }
    rewrite Ep. unfold utf8. replace (r <? 128) with true by lia. reflexivity.
  - destruct (has (o_flags o) noUTF8Coercion); [reflexivity|]. specialize (F5 eq_refl). replace ((r =? 0x2028) || (r =? 0x2029)) with false by lia. reflexivity.
Qed.

Theorem C23_json_order_partial H vcall m t w v opts o out mt ca q kt et es : host_ok H vcall -> sort_ok H ->
  call H m t w v opts o -> marshal_returns H m (Some (t, w)) opts (MOk out) -> has (o_flags o) unsortedMap = false ->
  inner H o (t, is_ptr H t, false, v) (mt, ca, q, VMap es) -> DocSpec.plain H mt ca -> under (h_env H) mt = TMap kt et -> isString (h_env H) kt = true ->
  (forall s x, In (VStr s, x) es -> bytes_ok s /\ needs_no_escape o s) -> in_key_order H vcall o kt et es out.
Proof.
  intros OK SO C R Srt Hi P U Hs Hn. destruct (C22_members H vcall m t w v opts o out mt ca q kt et es OK SO C R Srt Hi P U) as (kvs & kvs' & Hf & Hp & Ho & Hx).
  assert (Hf' : Forall2 (fun kv e => entry_bytes H vcall o kt et e kv /\ In e es) kvs es).
  { assert (G : forall l, incl l es -> forall k, Forall2 (entry_bytes H vcall o kt et) l k -> Forall2 (fun kv e => entry_bytes H vcall o kt et e kv /\ In e es) k l).
    { induction l as [|a l IH]; intros Hl k Hk; inversion Hk; subst; constructor; [split; [assumption | apply Hl; left; reflexivity] | apply IH; [intros z Hz; apply Hl; right; exact Hz | assumption]]. }
    apply G; [apply incl_refl | exact Hf]. }
  destruct (Forall2_perm _ _ _ Hp _ Hf') as (es' & A1 & A2). exists es', kvs'. split; [exact A2|].
  assert (Q : forall e kv, entry_bytes H vcall o kt et e kv -> In e es -> sort_key (fst kv) = raw_key e).
  { intros [k x] [kb vb] [Kb _] Hin. cbn [fst snd] in *. destruct Kb as [(_ & s & Es & ->)|[(C1 & _)|(C1 & _)]]; [|congruence|congruence]. subst k. destruct (Hn _ _ Hin) as [B N].
    unfold raw_key. cbn [fst]. rewrite (needs_no_escape_same o s B N). apply sort_key_quoted. }
  split; [|split; [|exact Hx]].
  - clear - A1 Ho Q. revert es' A1. induction Ho as [|kv kvs' Hs IH Hh]; intros es' A1; inversion A1 as [|? e ? es1 [B1 B2] B3]; subst; constructor; [apply IH, B3|].
    clear - B1 B2 B3 Hh Q. revert es1 B3. induction Hh as [|kv1 kvs' Hl _ IH]; intros es1 B3; inversion B3 as [|? e1 ? es2 [D1 D2] D3]; subst; constructor; [|apply IH, D3].
    rewrite <- (Q _ _ B1 B2), <- (Q _ _ D1 D2). exact Hl.
  - clear - A1. induction A1 as [|kv e kvs2 es2 [B1 _] _ IH]; constructor; assumption.
Qed.

(** ** C24: UnsortedMap *)
Lemma call_unsorted opts o : call_opts opts = Some o -> call_opts (opts ++ [Some OUnsortedMap]) = Some (set_flag o unsortedMap).
Proof.
  intros Ho. assert (Ha : apply default_opts opts = o /\ validate o = None).
  { destruct opts as [|x l]; [injection Ho as <-; split; reflexivity|]. unfold call_opts, check_opts in Ho. cbv zeta in Ho. destruct (validate (apply default_opts (x :: l))) eqn:Ev; [discriminate|]. injection Ho as <-. auto. }
  destruct Ha as [Ha Hv]. unfold call_opts, check_opts. destruct (opts ++ [Some OUnsortedMap]) eqn:E; [destruct opts; discriminate|]. rewrite <- E. clear E.
  assert (X : apply default_opts (opts ++ [Some OUnsortedMap]) = set_flag o unsortedMap).
  { rewrite apply_app, Ha. reflexivity. }
  rewrite X. replace (validate (set_flag o unsortedMap)) with (validate o) by reflexivity. rewrite Hv. reflexivity.
Qed.

(** The default output is the UnsortedMap output for the same value iterated in
    some order. *)
Theorem C24_same_members H vcall m w t v opts o out : host_ok H vcall -> sort_ok H -> insensitive vcall ->
  call H m t w v opts o -> has (o_flags o) unsortedMap = false -> marshal_returns H m (Some (t, w)) opts (MOk out) ->
  exists v', shuffle v v' /\ bytes_of H vcall (set_flag o unsortedMap) (t, is_ptr H t, false, v') out /\
    forall m' w', call H m' t w' v' (opts ++ [Some OUnsortedMap]) (set_flag o unsortedMap) -> marshal_returns H m' (Some (t, w')) (opts ++ [Some OUnsortedMap]) (MOk out).
Proof.
  intros OK SO Ins C Srt R. destruct (bytes_order H vcall o t (is_ptr H t) false v out SO Ins Srt (call_bytes H vcall OK m t w v opts o C out R)) as (v' & Hs & Hb).
  exists v'. split; [exact Hs|]. split; [exact Hb|]. intros m' w' C'. eapply bytes_call; eauto.
Qed.

(** With UnsortedMap the members are in iteration order. *)
Theorem C24_iteration_order H vcall m t w v opts o out mt ca q kt et es : host_ok H vcall -> sort_ok H ->
  call H m t w v opts o -> marshal_returns H m (Some (t, w)) opts (MOk out) -> has (o_flags o) unsortedMap = true ->
  inner H o (t, is_ptr H t, false, v) (mt, ca, q, VMap es) -> DocSpec.plain H mt ca -> under (h_env H) mt = TMap kt et ->
  exists kvs, Forall2 (entry_bytes H vcall o kt et) es kvs /\ infix (123 :: join_members kvs ++ [125]) out.
Proof.
  intros OK SO C R Srt Hi P U. destruct (call_inner H vcall OK m t w v opts o C out _ SO R Hi) as (b & Hb & Hx).
  destruct (map_bytes H vcall o SO mt ca q kt et es b P U (map_key_ok H vcall o mt ca q kt et es b P U Hb) Hb) as (kvs & Hf & kvs' & Hp & -> & Hs). rewrite Srt in Hs. subst kvs'.
  exists kvs. split; assumption.
Qed.

(** Both fail or neither does, with the same error. *)
Theorem C24_same_failure H vcall m w t v opts o e : host_ok H vcall ->
  call H m t w v opts o -> call H m t w v (opts ++ [Some OUnsortedMap]) (set_flag o unsortedMap) -> has (o_flags o) unsortedMap = false ->
  marshal_returns H m (Some (t, w)) opts (MErr e) <-> marshal_returns H m (Some (t, w)) (opts ++ [Some OUnsortedMap]) (MErr e).
Proof.
  intros OK C C' Srt. destruct (call_returns H vcall OK m t w v opts o C) as (out & err & En & Hr). destruct (call_returns H vcall OK m t w v _ _ C') as (out' & err' & En' & Hr').
  rewrite Hr, Hr'. enough (err = err') by (subst err'; destruct err; cbn; split; intros [= <-]; reflexivity).
  destruct (encodes_inv H vcall o t v out err En) as [n Hn]. destruct (encodes_inv H vcall _ t v out' err' En') as [n' Hn'].
  assert (A := venc_mono H vcall o n (Nat.max n n') t (is_ptr H t) false v ltac:(lia) ltac:(rewrite Hn; discriminate)).
  assert (B := venc_mono H vcall _ n' (Nat.max n n') t (is_ptr H t) false v ltac:(lia) ltac:(rewrite Hn'; discriminate)).
  assert (X := venc_err_rel H vcall o (set_flag o unsortedMap) eq_refl (Nat.max n n') Srt t (is_ptr H t) false v). rewrite A, B, Hn, Hn' in X. exact X.
Qed.

(** ** C25: member names are strings *)
(** What a key means, for keys whose encoding is sound (DocSpec): a JSON string. *)
Definition name_ok H vcall o kt ca (e : val * val) (kv : member) : Prop := exists us, doc_key H vcall o kt ca (fst e) us /\ json no_ws true (JStr us) (fst kv).

Definition key_covered H vcall o kt ca (k : val) : Prop :=
  isString (h_env H) kt = true \/ (h_impl H kt MText && is_ptr H kt && vnil k) = true \/ (key_sound H o kt ca k /\ all_sound H vcall o true (kt, ca, false, k)).

Theorem C25_names_partial H vcall m t w v opts o out mt ca q kt et es kvs : host_ok H vcall -> shortest_ok (h_shortest H) -> sort_ok H -> esc_on o ->
  call H m t w v opts o -> marshal_returns H m (Some (t, w)) opts (MOk out) ->
  inner H o (t, is_ptr H t, false, v) (mt, ca, q, VMap es) -> DocSpec.plain H mt ca -> under (h_env H) mt = TMap kt et ->
  (forall k x, In (k, x) es -> key_covered H vcall o kt false k) -> Forall2 (entry_bytes H vcall o kt et) es kvs -> Forall2 (name_ok H vcall o kt false) es kvs.
Proof.
  intros OK SH SO ON C R Hi P U Hc Hf. destruct (call_inner H vcall OK m t w v opts o C out _ SO R Hi) as (b & Hb & Hx). assert (K := map_key_ok H vcall o mt ca q kt et es b P U Hb).
  destruct (call_opts_valid opts o (c_opts _ _ _ _ _ _ _ C)) as (_ & _ & DV).
  assert (Hh : held H m (mt, ca, q, VMap es)) by (apply (part_held H vcall OK o m _ _ (call_held H vcall OK m t w v opts o C)), inner_part, Hi).
  destruct Hh as (Tm & l & Hr). inversion Hr as [| | | | | | | | |? ? k0 e0 a addrs es0 U0 _ _ _ L0 He| | | |]; subst. assert (k0 = kt) by congruence. assert (e0 = et) by congruence. subst k0 e0.
  assert (Tk : typ_ok (h_letter H) (h_udigit H) kt).
  { assert (X := under_ok H (ok_wf _ _ OK) mt Tm). rewrite U in X. apply X. }
  assert (Hk : forall k x, In (k, x) es -> held H m (kt, false, false, k)).
  { intros k x Hin. apply In_nth_error in Hin. destruct Hin as [i Hin]. destruct (nth_error addrs i) as [[ka va]|] eqn:Ea.
    - destruct (He i ka va k x Ea Hin) as [Hk _]. split; [exact Tk|]. exists (LMem ka). exact Hk.
    - exfalso. apply nth_error_None in Ea. assert (X := proj1 (nth_error_Some es i)). rewrite Hin in X. specialize (X ltac:(discriminate)). lia. }
  clear Hr He L0 Hb Hx Hi R. induction Hf as [|[k x] [kb vb] es kvs [Kb Vb] Hf IH]; constructor; [|apply IH; [intros; eapply Hc; right; eassumption | intros; eapply Hk; right; eassumption]].
  specialize (Hc k x (or_introl eq_refl)). specialize (Hk k x (or_introl eq_refl)). unfold name_ok. cbn [fst snd] in *. destruct Kb as [(Es & s & -> & ->)|[(Es & _ & E1 & E2 & -> & ->)|(Es & Nn & bb & Hbb & ->)]].
  - assert (B : bytes_ok s) by (destruct Hk as (_ & l0 & Hl); inversion Hl; subst; assumption). destruct (string_units_total s B) as (us & Hu). exists us.
    split; [apply K_str; assumption | apply string_doc; assumption].
  - exists []. split; [apply K_nil; assumption|]. apply to_lax. apply (j_str no_ws false [] []). constructor.
  - destruct Hbb as [n Hn]. assert (X : vquote_if (negb (h_impl H kt MText)) (venc H vcall o n kt false false k) = VRet (if h_impl H kt MText then bb else 34 :: bb ++ [34]) None).
    { rewrite Hn. destruct (h_impl H kt MText); reflexivity. }
    specialize (Nn eq_refl). destruct Hc as [Hc|[Hc|[Hc1 Hc2]]]; [congruence | congruence|].
    apply (key_doc H vcall o m true (venc H vcall o n)) with (out := if h_impl H kt MText then bb else 34 :: bb ++ [34]); auto.
    + apply (venc_doc H vcall OK SH SO o ON DV m true).
    + unfold key_ok in K. rewrite Es in K. exact K.
Qed.

(** String keys, and keys of an integer type without methods, whatever the
    options that keep escaping on. *)
Theorem C25_basic_names H vcall m t w v opts o out mt ca q kt et es kvs : host_ok H vcall -> shortest_ok (h_shortest H) -> sort_ok H -> esc_on o ->
  call H m t w v opts o -> marshal_returns H m (Some (t, w)) opts (MOk out) ->
  inner H o (t, is_ptr H t, false, v) (mt, ca, q, VMap es) -> DocSpec.plain H mt ca -> under (h_env H) mt = TMap kt et ->
  isString (h_env H) kt = true \/ ((exists k, under (h_env H) kt = TInt k) /\ DocSpec.plain H kt false /\ h_impl H kt MText = false) ->
  Forall2 (entry_bytes H vcall o kt et) es kvs -> Forall2 (name_ok H vcall o kt false) es kvs.
Proof.
  intros OK SH SO ON C R Hi P U Hk Hf. apply (C25_names_partial H vcall m t w v opts o out mt ca q kt et es kvs OK SH SO ON C R Hi P U); [|exact Hf]. intros k x Hin.
  destruct Hk as [Hk|((ik & Hk) & Pk & Ht)]; [left; exact Hk|]. right. right. split; [intros _; rewrite Ht; right; exact Pk|].
  intros y Hy. assert (y = (kt, false, false, k)). { inversion Hy as [|? z ? Hc]; subst; [reflexivity|]. inversion Hc; subst; try congruence; destruct Pk as [Pk _]; discriminate Pk. }
  subst y. destruct Pk as [P1 P2]. unfold sound_node. destruct kt; try discriminate P1; try rewrite P2; try rewrite Hk; exact I.
Qed.

Definition names_quoted H vcall : Prop :=
  forall m t w v opts o out mt ca q kt et es kvs, esc_on o -> call H m t w v opts o -> marshal_returns H m (Some (t, w)) opts (MOk out) ->
    inner H o (t, is_ptr H t, false, v) (mt, ca, q, VMap es) -> DocSpec.plain H mt ca -> under (h_env H) mt = TMap kt et -> Forall2 (entry_bytes H vcall o kt et) es kvs ->
    Forall (fun kv => exists us, json no_ws true (JStr us) (fst kv)) kvs.

(** map[time.Duration]int{1s: 2} with DurationFormat(DurationString) *)
Definition dur_opts : list (option option_) := [Some (ODurationFormat DurationString)].
Definition dur_o : encOpts := match call_opts dur_opts with Some o => o | None => default_opts end.
Definition dur_t : typ := TMap TDuration (TInt KInt).
Definition dur_v : val := VMap [(VInt 1000000000, VInt 2)].
Lemma dur_call : call mapH (mem_of mapH dur_t dur_v) dur_t (word_of mapH dur_t dur_v) dur_v dur_opts dur_o.
Proof. apply (plain_call _ 10); vm_compute; reflexivity. Qed.
Lemma dur_out : marshal_returns mapH (mem_of mapH dur_t dur_v) (Some (dur_t, word_of mapH dur_t dur_v)) dur_opts (MOk (lit "{""""1s"""":2}")).
Proof. exists 12%nat; split; [vm_compute; reflexivity | discriminate]. Qed.

(** map[time.Time]int{time.Unix(1, 0): 2} with UnixTime and UnsortedMap *)
Definition time_impl (t : typ) (k : mkind) : bool := match t, k with TTime, MText => true | _, _ => false end.
Definition timeH : host := constH [] time_impl null_result.
Definition timeV := constV null_result.
Lemma time_ok : host_ok timeH timeV.
Proof. apply constH_ok; [vm_compute; reflexivity|]. intros k td ctx b [= <-]. apply bytes_okb_ok. reflexivity. Qed.
Definition unix_opts : list (option option_) := [Some OUnixTime; Some OUnsortedMap].
Definition unix_o : encOpts := match call_opts unix_opts with Some o => o | None => default_opts end.
Definition unix_t : typ := TMap TTime (TInt KInt).
Definition unix_v : val := VMap [(VTime (mkTime 1 0 0), VInt 2)].
Lemma unix_call : call timeH (mem_of timeH unix_t unix_v) unix_t (word_of timeH unix_t unix_v) unix_v unix_opts unix_o.
Proof. apply (const_call _ time_impl null_result 10); vm_compute; reflexivity. Qed.
Lemma unix_out : marshal_returns timeH (mem_of timeH unix_t unix_v) (Some (unix_t, word_of timeH unix_t unix_v)) unix_opts (MOk (lit "{1:2}")).
Proof. exists 12%nat; split; [vm_compute; reflexivity | discriminate]. Qed.

Lemma dur_entry : Forall2 (entry_bytes mapH plainV dur_o TDuration (TInt KInt)) [(VInt 1000000000, VInt 2)] [(lit """""1s""""", lit "2")].
Proof.
  constructor; [|constructor]. split; [|exists 3%nat; vm_compute; reflexivity]. right. right. split; [reflexivity|]. split; [reflexivity|]. exists (lit """1s""").
  split; [exists 3%nat; vm_compute; reflexivity | reflexivity].
Qed.
Lemma unix_entry : Forall2 (entry_bytes timeH timeV unix_o TTime (TInt KInt)) [(VTime (mkTime 1 0 0), VInt 2)] [(lit "1", lit "2")].
Proof.
  constructor; [|constructor]. split; [|exists 3%nat; vm_compute; reflexivity]. right. right. split; [reflexivity|]. split; [reflexivity|]. exists (lit "1").
  split; [exists 3%nat; vm_compute; reflexivity | reflexivity].
Qed.

Theorem C25_names_refuted : (host_ok mapH plainV /\ ~ names_quoted mapH plainV) /\ (host_ok timeH timeV /\ ~ names_quoted timeH timeV).
Proof.
  split; (split; [first [exact map_ok | exact time_ok]|]); intros J.
  - assert (X := J _ _ _ _ dur_opts dur_o _ dur_t false false TDuration (TInt KInt) [(VInt 1000000000, VInt 2)] _ ltac:(split; vm_compute; reflexivity) dur_call dur_out
      (inner_refl _ _ _) (conj eq_refl eq_refl) eq_refl dur_entry). inversion X as [|? ? (us & Hj) _]; subst. cbn [fst] in Hj. apply json_no_ws_text in Hj.
    assert (V : json_valid (lit """""1s""""") = true) by (apply json_valid_correct; [apply bytes_okb_ok; reflexivity | eauto]). vm_compute in V. discriminate.
  - assert (X := J _ _ _ _ unix_opts unix_o _ unix_t false false TTime (TInt KInt) [(VTime (mkTime 1 0 0), VInt 2)] _ ltac:(split; vm_compute; reflexivity) unix_call unix_out
      (inner_refl _ _ _) (conj eq_refl eq_refl) eq_refl unix_entry). inversion X as [|? ? (us & Hj) _]; subst. cbn [fst] in Hj. inversion Hj.
Qed.

(** ** C26: sync.Map *)
(** The map with the same entries: keys as strings. *)
Definition string_entry (e : val * val) : val * val := (match fst e with VIface _ k => k | k => k end, snd e).
Definition string_keyed (H : host) (e : val * val) : Prop := (exists kt s, fst e = VIface kt (VStr s) /\ isString (h_env H) kt = true) /\ exists vt x, snd e = VIface vt x.

Lemma sync_venc H vcall o n ca ca' q q' es : sort_ok H -> DocSpec.plain H (TMap TString (TIface None)) ca' -> DocSpec.plain H (TIface None) false -> key_ok H TString = true ->
  Forall (string_keyed H) es ->
  venc H vcall o (S (S n)) (TMap TString (TIface None)) ca' q' (VMap (map string_entry es)) = venc H vcall o (S n) TSyncMap ca q (VSync es).
Proof.
  intros SO [P1 P2] [I1 I2] K Hf. remember (S n) as n1. cbn [venc]. rewrite P1, P2. unfold vkind. cbn [under]. rewrite K. cbn [negb]. subst n1. cbn [venc native vnative].
  assert (G : map (fun kv => (vkey H o (venc H vcall o (S n)) TString (fst kv), venc H vcall o (S n) (TIface None) false false (snd kv))) (map string_entry es) =
    map (fun kv => (vsync_key H o (venc H vcall o n) n (fst kv), vsync_val H (venc H vcall o n) n (snd kv))) es).
  { rewrite map_map. induction Hf as [|[k v] es [(kt & s & Ek & Hk) (vt & x & Ev)] _ IH]; [reflexivity|]. cbn [map]. rewrite IH. f_equal. cbn [fst snd] in *. subst k v. cbn [string_entry fst snd].
    f_equal.
    - unfold vkey, vsync_key. cbn [isString under]. rewrite Hk. reflexivity.
    - cbn [venc]. rewrite I1, I2. unfold vkind. cbn [under]. reflexivity. }
  rewrite <- G. destruct es as [|e es]; [|reflexivity]. cbn [map]. assert (S0 := proj1 (SO [])). apply Permutation_nil in S0.
  unfold ventries. destruct (has (o_flags o) unsortedMap); cbn; rewrite ?S0; reflexivity.
Qed.

Definition any_map : typ := TMap TString (TIface None).

(** *sync.Map, map[string]interface{}, interface{} and string without methods,
    as in Go. *)
Definition no_methods (H : host) : Prop :=
  DocSpec.plain H any_map false /\ DocSpec.plain H (TIface None) false /\ DocSpec.plain H (TPtr TSyncMap) true.

Theorem C26_same_as_map H vcall m m' w w' es opts o : host_ok H vcall -> sort_ok H -> no_methods H -> Forall (string_keyed H) es ->
  call H m (TPtr TSyncMap) w (VPtr (VSync es)) opts o -> call H m' any_map w' (VMap (map string_entry es)) opts o ->
  forall r, marshal_returns H m (Some (TPtr TSyncMap, w)) opts r <-> marshal_returns H m' (Some (any_map, w')) opts r.
Proof.
  intros OK SO (P1 & P2 & P3) Hf C C' r. destruct (call_returns H vcall OK m _ w _ opts o C) as (out & err & A & B).
  apply encodes_inv in A. destruct A as [n Hn]. rewrite (B r). symmetry. apply (marshal_iff H vcall OK m' any_map w' (VMap (map string_entry es)) opts o out err r); [apply C' | apply C'|].
  destruct n as [|n]; [discriminate|]. change (is_ptr H (TPtr TSyncMap)) with true in Hn. rewrite (venc_plain H vcall) in Hn by exact P3. unfold vkind in Hn. cbn [under] in Hn. destruct n as [|n]; [discriminate|].
  apply (encodes_venc H vcall OK o _ _ out err (S (S n))); [eapply holds_tok; apply C' | apply C'|].
  rewrite <- Hn. change (is_ptr H any_map) with false. apply (sync_venc H vcall o n true false false false es SO P1 P2 eq_refl Hf).
Qed.

(** A key that is nil, or neither string, integer nor TextMarshaler. *)
Definition bad_key (H : host) (k : val) : Prop :=
  k = VNil \/ exists kt x, k = VIface kt x /\ isString (h_env H) kt = false /\ isInteger (h_env H) kt = false /\ h_impl H kt MText = false.

Theorem C26_bad_key H vcall m t w v opts o ca q es : host_ok H vcall -> sort_ok H -> call H m t w v opts o ->
  inner H o (t, is_ptr H t, false, v) (TSyncMap, ca, q, VSync es) -> (exists k x, In (k, x) es /\ bad_key H k) ->
  exists e, forall r, marshal_returns H m (Some (t, w)) opts r <-> r = MErr e.
Proof.
  intros OK SO C Hi (k & x & Hin & Hb). destruct (call_returns H vcall OK m t w v opts o C) as (out & [e|] & A & B); [exists e; exact B|]. exfalso.
  assert (R : marshal_returns H m (Some (t, w)) opts (MOk out)) by (apply B; reflexivity).
  destruct (call_inner H vcall OK m t w v opts o C out _ SO R Hi) as (b & [n Hn] & _).
  assert (Ra : exists e, raises H vcall o (TSyncMap, ca, q, VSync es) e).
  { destruct Hb as [->|(kt & y & -> & K1 & K2 & K3)]; [exists ENilKey; eapply ra_nilkey; eauto | exists (EKeyType kt); eapply ra_keytype; eauto]. }
  destruct Ra as [e Ra]. eapply (raises_none H vcall o OK _ e Ra). exists n, b. exact Hn.
Qed.

(** A nil value makes Marshal read through a nil pointer, where the map with
    the same entries gives null. *)
Definition never_crashes H : Prop :=
  forall m w v opts, holds H m (TPtr TSyncMap) w v -> ~ marshal_returns H m (Some (TPtr TSyncMap, w)) opts MCrash.
Definition nilval_t : typ := TPtr TSyncMap.
Definition nilval_v : val := VPtr (VSync [(VIface TString (VStr (lit "a")), VNil)]).
Definition nilmap_v : val := VMap [(VStr (lit "a"), VNil)].
Lemma nilval_holds : holds mapH (mem_of mapH nilval_t nilval_v) nilval_t (word_of mapH nilval_t nilval_v) nilval_v.
Proof. apply (holdsb_ok mapH declb declb_ok _ 10). vm_compute. reflexivity. Qed.
Lemma nilval_crash : marshal_returns mapH (mem_of mapH nilval_t nilval_v) (Some (nilval_t, word_of mapH nilval_t nilval_v)) [] MCrash.
Proof. exists 12%nat; split; [vm_compute; reflexivity | discriminate]. Qed.
Lemma nilmap_call : call mapH (mem_of mapH any_map nilmap_v) any_map (word_of mapH any_map nilmap_v) nilmap_v [] default_opts.
Proof. apply (plain_call _ 10); vm_compute; reflexivity. Qed.
Lemma nilmap_out : marshal_returns mapH (mem_of mapH any_map nilmap_v) (Some (any_map, word_of mapH any_map nilmap_v)) [] (MOk (lit "{""a"":null}")).
Proof. exists 12%nat; split; [vm_compute; reflexivity | discriminate]. Qed.

Theorem C26_nil_value_refuted : host_ok mapH plainV /\ ~ never_crashes mapH.
Proof. split; [exact map_ok|]. intros J. exact (J _ _ _ _ nilval_holds nilval_crash). Qed.

(** ** Concrete cases *)
(** []map[string]int{{"b": 1, "a": 2}}, iterated in both orders *)
Definition ab_t : typ := TSlice tmap.
Definition ab_es : list (val * val) := [(VStr (lit "b"), VInt 1); (VStr (lit "a"), VInt 2)].
Definition ab_v : val := VSlice [VMap ab_es].
Definition ba_v : val := VSlice [VMap (rev ab_es)].
Lemma ab_call : call mapH (mem_of mapH ab_t ab_v) ab_t (word_of mapH ab_t ab_v) ab_v [] default_opts.
Proof. apply (plain_call _ 10); vm_compute; reflexivity. Qed.
Lemma ba_call : call mapH (mem_of mapH ab_t ba_v) ab_t (word_of mapH ab_t ba_v) ba_v [] default_opts.
Proof. apply (plain_call _ 10); vm_compute; reflexivity. Qed.
Lemma ab_out : marshal_returns mapH (mem_of mapH ab_t ab_v) (Some (ab_t, word_of mapH ab_t ab_v)) [] (MOk (lit "[{""a"":2,""b"":1}]")).
Proof. exists 12%nat; split; [vm_compute; reflexivity | discriminate]. Qed.
Lemma ab_inner : inner mapH default_opts (ab_t, is_ptr mapH ab_t, false, ab_v) (tmap, true, false, VMap ab_es).
Proof. apply (walk_ok mapH default_opts 10 [0%nat]). vm_compute. reflexivity. Qed.
Lemma ab_shuffle : shuffle ab_v ba_v.
Proof.
  apply sh_slice. constructor; [|constructor]. apply (sh_map _ (rev ab_es)); [apply Permutation_rev|]. apply Forall2_refl. intros e. split; apply sh_refl.
Qed.
Lemma plain_insensitive : insensitive plainV.
Proof. intros k td v v' ctx _. reflexivity. Qed.

Lemma ab_distinct : all_distinct mapH plainV default_opts (ab_t, is_ptr mapH ab_t, false, ab_v).
Proof.
  intros y Hy. inversion Hy as [|? y1 ? Hc Hy1]; subst; [split; [intros ? ? ? [=] | intros ? [=]]|].
  inversion Hc; subst; try discriminate. destruct H7 as [<-|[]]. match goal with A : under _ _ = _ |- _ => injection A as <- end. clear - Hy1.
  inversion Hy1 as [|? y2 ? Hc2 Hy2]; subst.
  - eapply C22_string_keys; try reflexivity.
    + intros k x [[= <- <-]|[[= <- <-]|[]]]; eexists _, _; (split; [reflexivity|]); (split; [apply bytes_okb_ok; reflexivity|]).
      * apply (us_cons 98 [] []); [left; lia | constructor].
      * apply (us_cons 97 [] []); [left; lia | constructor].
    + repeat constructor; cbn; intuition discriminate.
  - assert (Q : exists z, y2 = (TInt KInt, false, false, VInt z)).
    { inversion Hc2; subst; match goal with A : under _ _ = _ |- _ => try discriminate A; injection A as <- <- end; [discriminate|].
      match goal with I : In _ _ |- _ => destruct I as [[= <- <-]|[[= <- <-]|[]]] end; eauto. }
    destruct Q as [z ->]. inversion Hy2 as [|? y3 ? Hc3 _]; subst; [split; [intros ? ? ? [=] | intros ? [=]]|]. inversion Hc3; discriminate.
Qed.

Example C22_example :
  (exists kvs kvs', Forall2 (entry_bytes mapH plainV default_opts TString (TInt KInt)) ab_es kvs /\ Permutation kvs kvs' /\
    StronglySorted (fun a b => lexle (sort_key (fst a)) (sort_key (fst b))) kvs' /\ infix (123 :: join_members kvs' ++ [125]) (lit "[{""a"":2,""b"":1}]")) /\
  marshal_returns mapH (mem_of mapH ab_t ba_v) (Some (ab_t, word_of mapH ab_t ba_v)) [] (MOk (lit "[{""a"":2,""b"":1}]")).
Proof.
  split.
  - eapply C22_members; [exact map_ok | apply constH_sort | exact ab_call | exact ab_out | reflexivity | exact ab_inner | split; reflexivity | reflexivity].
  - eapply C22_order_independent; [exact map_ok | apply constH_sort | exact plain_insensitive | exact ab_call | exact ba_call | reflexivity | exact ab_shuffle | exact ab_distinct | exact ab_out].
Qed.

Example C23_example : in_key_order mapH plainV default_opts TString (TInt KInt) ab_es (lit "[{""a"":2,""b"":1}]").
Proof.
  eapply C23_json_order_partial; [exact map_ok | apply constH_sort | exact ab_call | exact ab_out | reflexivity | exact ab_inner | split; reflexivity | reflexivity | reflexivity|].
  intros s x [[= <- <-]|[[= <- <-]|[]]]; (split; [apply bytes_okb_ok; reflexivity|]); right.
  - exists [98]. split; [apply (us_cons 98 [] []); [left; lia | constructor] | repeat constructor; intros; lia].
  - exists [97]. split; [apply (us_cons 97 [] []); [left; lia | constructor] | repeat constructor; intros; lia].
Qed.

(** The same with UnsortedMap: the members come in iteration order. *)
Definition uns_opts : list (option option_) := [Some OUnsortedMap].
Definition uns_o : encOpts := set_flag default_opts unsortedMap.
Lemma ba_uns_call : call mapH (mem_of mapH ab_t ab_v) ab_t (word_of mapH ab_t ab_v) ab_v uns_opts uns_o.
Proof. apply (plain_call _ 10); vm_compute; reflexivity. Qed.
Lemma ba_uns_out : marshal_returns mapH (mem_of mapH ab_t ab_v) (Some (ab_t, word_of mapH ab_t ab_v)) uns_opts (MOk (lit "[{""b"":1,""a"":2}]")).
Proof. exists 12%nat; split; [vm_compute; reflexivity | discriminate]. Qed.
Lemma ba_uns_inner : inner mapH uns_o (ab_t, is_ptr mapH ab_t, false, ab_v) (tmap, true, false, VMap ab_es).
Proof. apply (walk_ok mapH uns_o 10 [0%nat]). vm_compute. reflexivity. Qed.

Example C24_example :
  (exists v', shuffle ab_v v' /\ bytes_of mapH plainV uns_o (ab_t, is_ptr mapH ab_t, false, v') (lit "[{""a"":2,""b"":1}]")) /\
  (exists kvs, Forall2 (entry_bytes mapH plainV uns_o TString (TInt KInt)) ab_es kvs /\ infix (123 :: join_members kvs ++ [125]) (lit "[{""b"":1,""a"":2}]")).
Proof.
  split.
  - destruct (C24_same_members mapH plainV _ _ ab_t ab_v [] default_opts _ map_ok (constH_sort _ _ _) plain_insensitive ab_call eq_refl ab_out) as (v' & A & B & _). exists v'. split; assumption.
  - eapply C24_iteration_order; [exact map_ok | apply constH_sort | exact ba_uns_call | exact ba_uns_out | reflexivity | exact ba_uns_inner | split; reflexivity | reflexivity].
Qed.

(** map[string]func() fails both ways. *)
Definition fn_t : typ := TMap TString TFunc.
Definition fn_v : val := VMap [(VStr (lit "a"), VOpaque)].
Lemma fn_call : call mapH (mem_of mapH fn_t fn_v) fn_t (word_of mapH fn_t fn_v) fn_v [] default_opts.
Proof. apply (plain_call _ 10); vm_compute; reflexivity. Qed.
Lemma fn_call' : call mapH (mem_of mapH fn_t fn_v) fn_t (word_of mapH fn_t fn_v) fn_v uns_opts uns_o.
Proof. apply (plain_call _ 10); vm_compute; reflexivity. Qed.
Example C24_failure_example : marshal_returns mapH (mem_of mapH fn_t fn_v) (Some (fn_t, word_of mapH fn_t fn_v)) uns_opts (MErr (EUnsupportedType TFunc)).
Proof.
  apply (C24_same_failure mapH plainV _ _ fn_t fn_v [] default_opts _ map_ok fn_call fn_call' eq_refl). exists 12%nat; split; [vm_compute; reflexivity | discriminate].
Qed.

(** map[int]string{7: "x"} *)
Definition ik_t : typ := TMap (TInt KInt) TString.
Definition ik_v : val := VMap [(VInt 7, VStr (lit "x"))].
Lemma ik_call : call mapH (mem_of mapH ik_t ik_v) ik_t (word_of mapH ik_t ik_v) ik_v [] default_opts.
Proof. apply (plain_call _ 10); vm_compute; reflexivity. Qed.
Lemma ik_out : marshal_returns mapH (mem_of mapH ik_t ik_v) (Some (ik_t, word_of mapH ik_t ik_v)) [] (MOk (lit "{""7"":""x""}")).
Proof. exists 12%nat; split; [vm_compute; reflexivity | discriminate]. Qed.
Lemma ik_entry : Forall2 (entry_bytes mapH plainV default_opts (TInt KInt) TString) [(VInt 7, VStr (lit "x"))] [(lit """7""", lit """x""")].
Proof.
  constructor; [|constructor]. split; [|exists 3%nat; vm_compute; reflexivity]. right. right. split; [reflexivity|]. split; [reflexivity|]. exists (lit "7").
  split; [exists 3%nat; vm_compute; reflexivity | reflexivity].
Qed.
Lemma ik_esc : esc_on default_opts. Proof. split; reflexivity. Qed.
Example C25_example : Forall2 (name_ok mapH plainV default_opts (TInt KInt) false) [(VInt 7, VStr (lit "x"))] [(lit """7""", lit """x""")].
Proof.
  eapply C25_basic_names; [exact map_ok | exact ex_shortest | apply constH_sort | exact ik_esc | exact ik_call | exact ik_out | apply inner_refl | split; reflexivity | reflexivity | | exact ik_entry].
  right. split; [eexists; reflexivity | split; [split; reflexivity | reflexivity]].
Qed.

(** &sync.Map{"k": 1} and map[string]interface{}{"k": 1} *)
Definition sy_es : list (val * val) := [(VIface TString (VStr (lit "k")), VIface (TInt KInt) (VInt 1)); (VIface TString (VStr (lit "j")), VIface TString (VStr (lit "x")))].
Definition sy_v : val := VPtr (VSync sy_es).
Definition sm_v : val := VMap (map string_entry sy_es).
Lemma sy_call : call mapH (mem_of mapH (TPtr TSyncMap) sy_v) (TPtr TSyncMap) (word_of mapH (TPtr TSyncMap) sy_v) sy_v [] default_opts.
Proof. apply (plain_call _ 10); vm_compute; reflexivity. Qed.
Lemma sm_call : call mapH (mem_of mapH any_map sm_v) any_map (word_of mapH any_map sm_v) sm_v [] default_opts.
Proof. apply (plain_call _ 10); vm_compute; reflexivity. Qed.
Example C26_example : marshal_returns mapH (mem_of mapH (TPtr TSyncMap) sy_v) (Some (TPtr TSyncMap, word_of mapH (TPtr TSyncMap) sy_v)) [] (MOk (lit "{""j"":""x"",""k"":1}")).
Proof.
  apply (C26_same_as_map mapH plainV _ _ _ _ sy_es [] default_opts map_ok (constH_sort _ _ _)
    (conj (conj eq_refl eq_refl) (conj (conj eq_refl eq_refl) (conj eq_refl eq_refl)))) with (2 := sy_call) (3 := sm_call).
  - repeat constructor; repeat eexists.
  - exists 12%nat; split; [vm_compute; reflexivity | discriminate].
Qed.

(** A boolean key. *)
Definition bk_es : list (val * val) := [(VIface TBool (VBool true), VIface (TInt KInt) (VInt 1))].
Definition bk_v : val := VPtr (VSync bk_es).
Lemma bk_call : call mapH (mem_of mapH (TPtr TSyncMap) bk_v) (TPtr TSyncMap) (word_of mapH (TPtr TSyncMap) bk_v) bk_v [] default_opts.
Proof. apply (plain_call _ 10); vm_compute; reflexivity. Qed.
Example C26_bad_key_example : exists e, forall r, marshal_returns mapH (mem_of mapH (TPtr TSyncMap) bk_v) (Some (TPtr TSyncMap, word_of mapH (TPtr TSyncMap) bk_v)) [] r <-> r = MErr e.
Proof.
  eapply (C26_bad_key mapH plainV _ _ _ _ _ _ true false bk_es map_ok (constH_sort _ _ _) bk_call).
  - apply (walk_ok mapH default_opts 10 [0%nat]). vm_compute. reflexivity.
  - do 2 eexists. split; [left; reflexivity|]. right. do 2 eexists. split; [reflexivity|]. repeat split.
Qed.

Example C26_bad_key_error : marshal_returns mapH (mem_of mapH (TPtr TSyncMap) bk_v) (Some (TPtr TSyncMap, word_of mapH (TPtr TSyncMap) bk_v)) [] (MErr (EKeyType TBool)).
Proof. exists 12%nat; split; [vm_compute; reflexivity | discriminate]. Qed.

Print Assumptions C22_members.
Print Assumptions C22_sync_members.
Print Assumptions C22_order_independent.
Print Assumptions C22_order_irrelevant.
Print Assumptions C22_string_keys.
Print Assumptions C23_json_order_refuted.
Print Assumptions C23_json_order_partial.
Print Assumptions C24_same_members.
Print Assumptions C24_iteration_order.
Print Assumptions C24_same_failure.
Print Assumptions C25_names_partial.
Print Assumptions C25_basic_names.
Print Assumptions C25_names_refuted.
Print Assumptions C26_same_as_map.
Print Assumptions C26_bad_key.
Print Assumptions C26_nil_value_refuted.
