(** Iteration order: values that differ only in the order of map entries, at any
    depth, and what the encoder makes of them. *)
From Coq Require Import Permutation Sorted.
From Verif Require Import Base Utf8 JsonSpec OptionsModel EscapeModel TypesModel TypesFacts TagsModel LeafModel MemModel FieldsModel FieldsProof InstrModel ExecModel ValueModel
  ExecMono ExecProof VencFacts MarshalThm DocSpec EntriesFacts PartFacts DocProof SafeProof ApiFacts PartsThm ShapeThm.

(** The same value, with the entries of maps in another order. *)
Inductive shuffle : val -> val -> Prop :=
| sh_refl v : shuffle v v
| sh_ptr v v' : shuffle v v' -> shuffle (VPtr v) (VPtr v')
| sh_iface t v v' : shuffle v v' -> shuffle (VIface t v) (VIface t v')
| sh_slice vs vs' : Forall2 shuffle vs vs' -> shuffle (VSlice vs) (VSlice vs')
| sh_arr vs vs' : Forall2 shuffle vs vs' -> shuffle (VArr vs) (VArr vs')
| sh_struct vs vs' : Forall2 shuffle vs vs' -> shuffle (VStruct vs) (VStruct vs')
| sh_map es es1 es2 : Permutation es es1 -> Forall2 (fun a b => shuffle (fst a) (fst b) /\ shuffle (snd a) (snd b)) es1 es2 -> shuffle (VMap es) (VMap es2)
| sh_sync es es1 es2 : Permutation es es1 -> Forall2 (fun a b => shuffle (fst a) (fst b) /\ shuffle (snd a) (snd b)) es1 es2 -> shuffle (VSync es) (VSync es2).

Lemma Forall2_refl {A} (R : A -> A -> Prop) l : (forall x, R x x) -> Forall2 R l l.
Proof. intros Hr. induction l; constructor; auto. Qed.

Lemma Forall2_perm {A B} (R : A -> B -> Prop) l1 l2 : Permutation l1 l2 -> forall k1, Forall2 R l1 k1 -> exists k2, Forall2 R l2 k2 /\ Permutation k1 k2.
Proof.
  induction 1 as [|x l1 l2 _ IH|x y l|l1 l2 l3 _ IH1 _ IH2]; intros k1 Hf.
  - inversion Hf; subst. exists []. split; constructor.
  - inversion Hf as [|? b ? k Hb Hf']; subst. destruct (IH _ Hf') as (k2 & A1 & A2). exists (b :: k2). split; constructor; assumption.
  - inversion Hf as [|? b ? k Hb Hf']; subst. inversion Hf' as [|? b' ? k' Hb' Hf'']; subst. exists (b' :: b :: k'). split; [repeat constructor; assumption | apply perm_swap].
  - destruct (IH1 _ Hf) as (k2 & A1 & A2). destruct (IH2 _ A1) as (k3 & A3 & A4). exists k3. split; [exact A3 | eapply perm_trans; eauto].
Qed.

(** Two sorted arrangements of the same members with distinct keys are equal. *)
Lemma sorted_unique (l1 l2 : list (bytes * bytes)) : Permutation l1 l2 -> NoDup (map fst l1) ->
  StronglySorted (fun a b => key_le (fst a) (fst b)) l1 -> StronglySorted (fun a b => key_le (fst a) (fst b)) l2 -> l1 = l2.
Proof.
  revert l2. induction l1 as [|x l1 IH]; intros l2 Hp Hn S1 S2; [apply Permutation_nil in Hp; congruence|].
  destruct l2 as [|y l2]; [apply Permutation_sym, Permutation_nil in Hp; discriminate|].
  inversion S1 as [|? ? S1' F1]; inversion S2 as [|? ? S2' F2]; subst. rewrite Forall_forall in F1, F2. cbn [map] in Hn. inversion Hn as [|? ? N1 N2]; subst.
  assert (Exy : x = y).
  { assert (Hy : In y (x :: l1)) by (apply (Permutation_in _ (Permutation_sym Hp)); left; reflexivity). destruct Hy as [|Hy]; [assumption|].
    assert (Hx : In x (y :: l2)) by (apply (Permutation_in _ Hp); left; reflexivity). destruct Hx as [|Hx]; [congruence|].
    exfalso. apply N1. assert (Ek : fst x = fst y) by (apply bytes_ltb_total; [apply F2, Hx | apply F1, Hy]). rewrite Ek. apply List.in_map, Hy. }
  subst y. f_equal. apply IH; auto. apply Permutation_cons_inv with (a := x), Hp.
Qed.

Section Shuffle.
  Variable H : host.
  Variable vcall : mkind -> typ -> val -> option Z -> bytes + Z.
  Hypothesis SO : sort_ok H.
  Variable o : encOpts.
  Notation E := (h_env H).
  Notation opt := (has (o_flags o)).

  (** Methods whose results do not depend on iteration order. *)
  Definition insensitive : Prop := forall k td v v' ctx, shuffle v v' -> vcall k td v ctx = vcall k td v' ctx.
  Hypothesis Ins : insensitive.

  Definition distinct_keys (x : node) : Prop :=
    let '(t, ca, q, v) := x in
    (forall es kt et, v = VMap es -> DocSpec.plain H t ca -> under E t = TMap kt et -> key_ok H kt = true ->
       forall kvs, Forall2 (entry_bytes H vcall o kt et) es kvs -> NoDup (map (fun kv => sort_key (fst kv)) kvs)) /\
    (forall es, v = VSync es -> t = TSyncMap -> forall kvs, Forall2 (sync_entry_bytes H vcall o) es kvs -> NoDup (map (fun kv => sort_key (fst kv)) kvs)).
  Definition all_distinct (x : node) : Prop := forall y, part H o x y -> distinct_keys y.

  Lemma distinct_here x : all_distinct x -> distinct_keys x.
  Proof. intros Ha. apply Ha. constructor. Qed.
  Lemma distinct_child x y : all_distinct x -> child H o x y -> all_distinct y.
  Proof. intros Ha Hc z Hz. apply Ha. eapply part_step; eauto. Qed.

  (** ** Pieces *)
  Lemma shuffle_nil v v' : shuffle v v' -> vnil v = vnil v'.
  Proof. intros []; reflexivity. Qed.

  Lemma shuffle_empty v v' : shuffle v v' -> vempty v = vempty v'.
  Proof.
    intros [| | | ? ? Hf|? ? Hf| |es es1 es2 Hp Hf|]; try reflexivity; [destruct Hf; reflexivity | destruct Hf; reflexivity|].
    cbn [vempty]. destruct es as [|e es].
    - apply Permutation_nil in Hp. subst es1. inversion Hf. reflexivity.
    - destruct es1 as [|e1 es1]; [apply Permutation_sym, Permutation_nil in Hp; discriminate|]. inversion Hf. reflexivity.
  Qed.

  Lemma shuffle_bytes vs vs' : Forall2 shuffle vs vs' -> forall b, vbytes vs = Some b -> vbytes vs' = Some b.
  Proof.
    induction 1 as [|v v' vs vs' Hs _ IH]; intros b Hb; [exact Hb|]. cbn [vbytes] in *. destruct v; try discriminate. inversion Hs; subst.
    destruct (vbytes vs) as [bs|]; [|discriminate]. rewrite (IH bs eq_refl). exact Hb.
  Qed.

  Lemma Forall2_nth {A B} (R : A -> B -> Prop) l l' : Forall2 R l l' -> forall i x, nth_error l i = Some x -> exists y, nth_error l' i = Some y /\ R x y.
  Proof. induction 1 as [|a b l l' Hr _ IH]; intros [|i] x Hn; try discriminate; cbn in *; [injection Hn as <-; eauto | eauto]. Qed.

  Lemma shuffle_get p : forall v v' r, shuffle v v' -> vget p v = Some r ->
    exists r', vget p v' = Some r' /\ match r, r' with Some x, Some x' => shuffle x x' | None, None => True | _, _ => False end.
  Proof.
    induction p as [|i p IH]; intros v v' r Hs Hg; cbn [vget] in *; [injection Hg as <-; exists (Some v'); auto|].
    destruct v; try discriminate. inversion Hs as [| | | | |? vs' Hf| |]; subst.
    - exists r. split; [exact Hg|]. destruct r; [apply sh_refl | exact I].
    - destruct (nth_error vs i) as [x|] eqn:En; [|discriminate]. destruct (Forall2_nth _ _ _ Hf i x En) as (x' & En' & Hx). rewrite En'.
      destruct p as [|j p]; [injection Hg as <-; exists (Some x'); auto|].
      destruct x; try (inversion Hx; subst; eapply IH; eauto; fail).
      + inversion Hx; subst. injection Hg as <-. exists None. auto.
      + inversion Hx; subst; [eapply IH; [apply sh_refl | exact Hg] | eapply IH; eauto].
  Qed.

  Lemma shuffle_method k t td v v' : shuffle v v' -> vmethod vcall o k t td v' = vmethod vcall o k t td v.
  Proof. intros Hs. unfold vmethod. destruct k; rewrite (Ins _ td v v' _ Hs); reflexivity. Qed.

  Lemma shuffle_marshaler n k t hp v v' b : shuffle v v' -> vmarshaler H vcall o n k t hp v = VRet b None -> vmarshaler H vcall o n k t hp v' = VRet b None.
  Proof.
    intros Hs. unfold vmarshaler. destruct hp; [rewrite (shuffle_method k _ _ (VPtr v) (VPtr v') (sh_ptr _ _ Hs)); auto|].
    assert (G : (match is_direct H n t with Some false => vmethod vcall o k t t v | Some true => VOut | None => VFuel end) = VRet b None ->
      (match is_direct H n t with Some false => vmethod vcall o k t t v' | Some true => VOut | None => VFuel end) = VRet b None).
    { destruct (is_direct H n t) as [[|]|]; auto. rewrite (shuffle_method k t t v v' Hs). auto. }
    destruct (under E t); try exact G.
    - destruct v; try discriminate; inversion Hs; subst; auto. rewrite (shuffle_method k t _ _ _ ltac:(eassumption)). auto.
    - destruct v; try discriminate; inversion Hs; subst; auto. rewrite (shuffle_method k t _ _ _ Hs). auto.
  Qed.

  Section Rec.
    Variable n : nat.
    Notation rec := (venc H vcall o n).

    Lemma gives_entry kt et k v kv : gives (vkey H o rec kt k, rec et false false v) kv -> entry_bytes H vcall o kt et (k, v) kv.
    Proof.
      destruct kv as [kb vb]. intros [Hk Hv]. cbn [fst snd] in *. split; cbn [fst snd]; [|exists n; exact Hv]. unfold vkey in Hk.
      destruct (isString E kt) eqn:Es.
      - destruct k; try discriminate. injection Hk as <-. left. split; [exact Es | eauto].
      - destruct (h_impl H kt MText && is_ptr H kt && vnil k) eqn:En.
        + injection Hk as <-. apply andb_true_iff in En. destruct En as [En1 En2]. apply andb_true_iff in En1. destruct k; try discriminate. right. left. intuition.
        + apply vquote_if_none in Hk. destruct Hk as (b & Hb & ->). right. right. split; [exact Es|]. split; [intros _; exact En|]. exists b. split; [exists n; exact Hb|]. destruct (h_impl H kt MText); reflexivity.
    Qed.

    Lemma gives_sync k v kv : gives (vsync_key H o rec n k, vsync_val H rec n v) kv -> sync_entry_bytes H vcall o (k, v) kv.
    Proof.
      destruct kv as [kb vb]. intros [Hk Hv]. cbn [fst snd] in *.
      destruct v; try discriminate. cbn [vsync_val] in Hv. apply vany_ret in Hv.
      destruct k; try discriminate. cbn [vsync_key] in Hk. destruct (isString E t0) eqn:Es; cbn [negb andb] in Hk.
      - destruct k; try discriminate. injection Hk as <-. do 4 eexists. split; [reflexivity|]. split; [left; split; [exact Es | eauto] | exists n; exact Hv].
      - destruct (negb (isInteger E t0) && negb (h_impl H t0 MText)); [discriminate|]. apply vquote_if_none in Hk. destruct Hk as (b & Hb & ->). apply vany_ret in Hb.
        do 4 eexists. split; [reflexivity|]. split; [|exists n; exact Hv]. right. right. split; [exact Es|]. split; [intros ->; rewrite andb_false_r; reflexivity|]. exists b. split; [exists n; exact Hb|]. destruct (h_impl H t0 MText); reflexivity.
    Qed.
  End Rec.

  (** ** Sorted maps do not depend on iteration order *)
  Hypothesis Srt : opt unsortedMap = false.

  Lemma ventries_sorted es out : ventries H o es = VRet out None <->
    exists kvs, Forall2 gives es kvs /\ Forall (fun kv => (2 <= length (fst kv))%nat) kvs /\ out = [123] ++ join_kvs (h_sort H (map sortable kvs)) true [] ++ [125].
  Proof.
    assert (J : forall l first out0, join_kvs l first out0 = out0 ++ join_kvs l first []).
    { induction l as [|[a b] l IH]; intros first out0; cbn [join_kvs]; [rewrite app_nil_r; reflexivity|]. rewrite IH. symmetry. rewrite IH. destruct first; rewrite <- ?app_assoc; reflexivity. }
    unfold ventries, vthen, vsorted. rewrite Srt. split.
    - destruct (vfill es []) as [r| | |] eqn:Ef; try discriminate. intros [= <-]. apply vfill_ret in Ef. destruct Ef as (kvs & A1 & A2 & ->). exists kvs. split; [exact A1|]. split; [exact A2|].
      cbn [app]. rewrite J. reflexivity.
    - intros (kvs & A1 & A2 & ->). rewrite (proj2 (vfill_ret es [] (map sortable kvs)) (ex_intro _ kvs (conj A1 (conj A2 eq_refl)))). rewrite J. reflexivity.
  Qed.

  (** F gives what an entry gives; [F'] what its image gives. *)
  Lemma entries_shuffle (F : val * val -> vres * vres) es es1 es2 out :
    Permutation es es1 -> Forall2 (fun a b => forall kv, In a es -> gives (F a) kv -> gives (F b) kv) es1 es2 ->
    (forall kvs, Forall2 gives (map F es) kvs -> NoDup (map (fun kv => sort_key (fst kv)) kvs)) ->
    ventries H o (map F es) = VRet out None -> ventries H o (map F es2) = VRet out None.
  Proof.
    intros Hp Hf Hd Hr. apply ventries_sorted in Hr. destruct Hr as (kvs & A1 & A2 & ->). specialize (Hd kvs A1).
    assert (A1' : Forall2 (fun a kv => In a es /\ gives (F a) kv) es kvs).
    { clear - A1. assert (G : forall l, incl l es -> forall kvs, Forall2 gives (map F l) kvs -> Forall2 (fun a kv => In a es /\ gives (F a) kv) l kvs).
      { induction l as [|a l IH]; intros Hl kvs' Hk; cbn [map] in Hk; inversion Hk; subst; constructor; [split; [apply Hl; left; reflexivity | assumption]|].
        apply IH; [intros z Hz; apply Hl; right; exact Hz | assumption]. }
      apply G; [apply incl_refl | exact A1]. }
    destruct (Forall2_perm _ _ _ Hp _ A1') as (kvs1 & B1 & B2). apply ventries_sorted. exists kvs1.
    split; [|split].
    - clear - Hf B1. revert kvs1 B1. induction Hf as [|a b l1 l2 Hab _ IH]; intros kvs1 B1; inversion B1 as [|? kv ? ? [C1 C2] C3]; subst; cbn [map]; constructor; auto.
    - eapply Permutation_Forall; eauto.
    - f_equal. f_equal. f_equal. destruct (SO (map sortable kvs)) as [P1 Q1]. destruct (SO (map sortable kvs1)) as [P2 Q2]. apply sorted_unique; auto.
      + eapply perm_trans; [apply Permutation_sym, P1|]. eapply perm_trans; [apply Permutation_map, B2 | exact P2].
      + assert (X : NoDup (map fst (map sortable kvs))) by (rewrite map_map; exact Hd). eapply Permutation_NoDup; [apply Permutation_map, P1 | exact X].
  Qed.

  Section Rec2.
    Variable n : nat.
    Notation rec := (venc H vcall o n).
    Hypothesis IH : forall t ca q v v' b, all_distinct (t, ca, q, v) -> shuffle v v' -> rec t ca q v = VRet b None -> rec t ca q v' = VRet b None.

    Lemma vany_shuffle t v v' b : all_distinct (t, is_ptr H t, false, v) -> shuffle v v' -> vany H rec n t v = VRet b None -> vany H rec n t v' = VRet b None.
    Proof.
      unfold vany. intros Hd Hs. destruct (is_direct H n t); [|discriminate]. destruct (isInlined H n t); [|discriminate]. destruct (Bool.eqb b0 b1 || opaque H t); [|discriminate]. apply IH; auto.
    Qed.

    Lemma velems_shuffle e ca vs vs' : Forall2 shuffle vs vs' -> (forall v, In v vs -> all_distinct (e, ca, false, v)) ->
      forall first out0 out, velems rec e ca vs first out0 = VRet out None -> velems rec e ca vs' first out0 = VRet out None.
    Proof.
      induction 1 as [|v v' vs vs' Hs _ IHf]; intros Hd first out0 out Hr; [exact Hr|]. cbn [velems] in *. unfold vthen in *.
      destruct (rec e ca false v) as [b [er|]| |] eqn:Er; try discriminate. rewrite (IH e ca false v v' b (Hd v (or_introl eq_refl)) Hs Er).
      apply IHf; [intros x Hx; apply Hd; right; exact Hx | exact Hr].
    Qed.

    Lemma vfields_shuffle t ca v v' all fs : shuffle v v' -> (forall f ft x, In f all -> shown H o t v f ft x -> all_distinct (ft, ca, quoted H f ft, x)) ->
      incl fs all -> forall first out0 out, vfields H o rec t ca v fs first out0 = VRet out None -> vfields H o rec t ca v' fs first out0 = VRet out None.
    Proof.
      intros Hs Hd. induction fs as [|f fs IHf]; intros Hi first out0 out Hr; [exact Hr|]. cbn [vfields] in *.
      assert (Hf : In f all) by (apply Hi; left; reflexivity). assert (Hi' : incl fs all) by (intros z Hz; apply Hi; right; exact Hz). specialize (IHf Hi').
      destruct (isDeniedField o (f_name f)) eqn:Ed; [apply IHf, Hr|]. destruct (negb (right_seq H t f)); [discriminate|].
      destruct (vget (f_index f) v) as [r|] eqn:Ev; [|discriminate]. destruct (shuffle_get _ _ _ _ Hs Ev) as (r' & Ev' & Hx). rewrite Ev'.
      destruct r as [x|], r' as [x'|]; try contradiction; [|apply IHf; exact Hr].
      destruct (type_by_index H t (f_index f)) as [ft|] eqn:Et; [|discriminate]. rewrite <- (shuffle_nil _ _ Hx), <- (shuffle_empty _ _ Hx).
      destruct (f_omitNil f && vnil x) eqn:En; [apply IHf, Hr|]. destruct (f_omitEmpty f && vempty x) eqn:Ee; [apply IHf, Hr|].
      assert (Sh : shown H o t v f ft x).
      { split; [rewrite <- isDeniedField_spec; congruence|]. split; [split; assumption|]. rewrite <- dropped_spec, En, Ee. discriminate. }
      cbn zeta in *. fold (quoted H f ft) in *. destruct (rec ft ca (quoted H f ft) x) as [b [er|]| |] eqn:Er; try discriminate.
      rewrite (IH _ _ _ _ x' b (Hd f ft x Hf Sh) Hx Er). apply IHf, Hr.
    Qed.

    Lemma vkey_shuffle kt k k' b : (isString E kt = false -> (h_impl H kt MText && is_ptr H kt && vnil k) = false -> all_distinct (kt, false, false, k)) -> shuffle k k' ->
      vkey H o rec kt k = VRet b None -> vkey H o rec kt k' = VRet b None.
    Proof.
      intros Hd Hs. unfold vkey. rewrite <- (shuffle_nil _ _ Hs). destruct (isString E kt) eqn:Es; [destruct k; try discriminate; inversion Hs; subst; auto|].
      destruct (h_impl H kt MText && is_ptr H kt && vnil k) eqn:En; [auto|]. intros Hr. apply vquote_if_none in Hr. destruct Hr as (b' & Hr & ->).
      rewrite (IH _ _ _ _ k' b' (Hd eq_refl eq_refl) Hs Hr). destruct (h_impl H kt MText); reflexivity.
    Qed.

    Lemma vkind_shuffle t ca q v v' b : DocSpec.plain H t ca -> all_distinct (t, ca, q, v) -> shuffle v v' -> vkind H o rec n t ca q v = VRet b None -> vkind H o rec n t ca q v' = VRet b None.
    Proof.
      intros P Hd Hs. unfold vkind.
      destruct (under E t) as [ |ik|fb| | | | | |ms|e|e|an e|kt et|fs|nn| | | | | ] eqn:U; try (destruct v; try discriminate; inversion Hs; subst; auto; fail); auto.
      - destruct v; try discriminate; inversion Hs; subst; auto. destruct ms; [discriminate|]. apply vany_shuffle; [|assumption]. eapply distinct_child; [exact Hd | eapply ch_iface; eauto].
      - destruct v; try discriminate; inversion Hs; subst; auto. apply IH; [|assumption]. eapply distinct_child; [exact Hd | eapply ch_ptr; eauto].
      - destruct v; try discriminate; inversion Hs; subst; auto. destruct (byte_elem H e) eqn:B.
        + destruct (vbytes vs) as [bs|] eqn:Eb; [|discriminate]. rewrite (shuffle_bytes _ _ ltac:(eassumption) bs Eb). auto.
        + apply velems_shuffle; [assumption|]. intros x Hx. eapply distinct_child; [exact Hd | eapply ch_slice; eauto].
      - destruct v; try discriminate; inversion Hs; subst; auto. destruct (byte_elem H e && opt byteArrayAsString) eqn:B.
        + destruct (vbytes vs) as [bs|] eqn:Eb; [|discriminate]. rewrite (shuffle_bytes _ _ ltac:(eassumption) bs Eb). auto.
        + apply velems_shuffle; [assumption|]. intros x Hx. eapply distinct_child; [exact Hd | eapply ch_array; eauto].
      - destruct (key_ok H kt) eqn:K; cbn [negb]; [|discriminate]. destruct v; try discriminate; inversion Hs as [| | | | | |? es1 es2 Hp Hf|]; subst; auto. intros Hr.
        assert (Hr' : ventries H o (map (fun kv => (vkey H o rec kt (fst kv), rec et false false (snd kv))) es) = VRet b None \/ es = []) by (destruct es; auto).
        destruct Hr' as [Hr'|E0].
        + assert (X : ventries H o (map (fun kv => (vkey H o rec kt (fst kv), rec et false false (snd kv))) es2) = VRet b None).
          { eapply (entries_shuffle (fun kv => (vkey H o rec kt (fst kv), rec et false false (snd kv))) es es1 es2); [exact Hp | | | exact Hr'].
            - clear Hr Hr' Hp Hs. induction Hf as [|[k x] [k' x'] l1 l2 [Hk Hx] _ IHf]; constructor; [|exact IHf]. intros [kb vb] Hin [G1 G2]. cbn [fst snd] in *. split; cbn [fst snd].
              + eapply vkey_shuffle; [|exact Hk | exact G1]. intros S0 N0. eapply distinct_child; [exact Hd | eapply ch_key; eauto].
              + eapply IH; [|exact Hx | exact G2]. eapply distinct_child; [exact Hd | eapply ch_elem; eauto].
            - intros kvs Hk. apply (proj1 (distinct_here _ Hd) es kt et eq_refl P U K). revert Hk. apply gives_map. intros [k x] kv. apply gives_entry. }
          destruct es2; [|exact X]. cbn in X. unfold ventries, vthen, vsorted in X. rewrite Srt in X. cbn in X. assert (S0 := proj1 (SO [])). apply Permutation_nil in S0. rewrite S0 in X. cbn in X. exact X.
        + subst es. apply Permutation_nil in Hp. subst es1. inversion Hf; subst. exact Hr.
      - destruct v; try discriminate. assert (exists vs', v' = VStruct vs') as [vs' ->] by (inversion Hs; eauto). unfold vstruct. destruct (fields_of H t); [auto|].
        destruct (structFields H n t) as [sf|] eqn:S; [|discriminate]. intros Hr. eapply vfields_shuffle; [exact Hs | | apply incl_refl | exact Hr].
        intros f ft x Hf Sh. eapply distinct_child; [exact Hd | eapply ch_field; eauto].
    Qed.

    Lemma vsync_shuffle es es1 es2 ca q b : all_distinct (TSyncMap, ca, q, VSync es) -> Permutation es es1 -> Forall2 (fun a b => shuffle (fst a) (fst b) /\ shuffle (snd a) (snd b)) es1 es2 ->
      ventries H o (map (fun kv => (vsync_key H o rec n (fst kv), vsync_val H rec n (snd kv))) es) = VRet b None ->
      ventries H o (map (fun kv => (vsync_key H o rec n (fst kv), vsync_val H rec n (snd kv))) es2) = VRet b None.
    Proof.
      intros Hd Hp Hf. apply (entries_shuffle (fun kv => (vsync_key H o rec n (fst kv), vsync_val H rec n (snd kv))) es es1 es2 b Hp).
      - clear Hp. induction Hf as [|[k x] [k' x'] l1 l2 [Hk Hx] _ IHf]; constructor; [|exact IHf]. intros [kb vb] Hin [G1 G2]. cbn [fst snd] in *. split; cbn [fst snd].
        + unfold vsync_key in *. destruct k; try discriminate. inversion Hk; subst; [exact G1|]. destruct (negb (isString E t) && negb (isInteger E t) && negb (h_impl H t MText)) eqn:Q; [discriminate|].
          destruct (isString E t) eqn:S0; [destruct k; try discriminate; match goal with X : shuffle (VStr _) _ |- _ => inversion X; subst end; exact G1|].
          apply vquote_if_none in G1. destruct G1 as (b' & G1 & ->). erewrite vany_shuffle; [| |eassumption | exact G1]; [destruct (h_impl H t MText); reflexivity|].
          eapply distinct_child; [exact Hd | eapply ch_skey; eauto]. destruct (isInteger E t), (h_impl H t MText); try reflexivity. discriminate Q.
        + unfold vsync_val in *. destruct x; try discriminate. inversion Hx; subst; [exact G2|]. eapply vany_shuffle; [|eassumption | exact G2]. eapply distinct_child; [exact Hd | eapply ch_sval; eauto].
      - intros kvs Hk. apply (proj2 (distinct_here _ Hd) es eq_refl eq_refl). revert Hk. apply gives_map. intros [k x] kv. apply gives_sync.
    Qed.
  End Rec2.

  Theorem venc_shuffle n : forall t ca q v v' b, all_distinct (t, ca, q, v) -> shuffle v v' -> venc H vcall o n t ca q v = VRet b None -> venc H vcall o n t ca q v' = VRet b None.
  Proof.
    induction n as [|n IH]; intros t ca q v v' b Hd Hs; [discriminate|]. cbn [venc]. destruct (native t) eqn:Nt.
    - unfold vnative. destruct t; try discriminate Nt; destruct v; try discriminate; inversion Hs; subst; auto.
      + destruct (vbytes vs) as [bs|] eqn:Eb; [|discriminate]. rewrite (shuffle_bytes _ _ ltac:(eassumption) bs Eb). auto.
      + eapply vsync_shuffle; eauto.
    - destruct (method_of H t ca) as [[k hp]|] eqn:M; [apply shuffle_marshaler, Hs|]. apply vkind_shuffle; auto. split; assumption.
  Qed.

  Theorem bytes_shuffle t ca q v v' b : all_distinct (t, ca, q, v) -> shuffle v v' -> bytes_of H vcall o (t, ca, q, v) b -> bytes_of H vcall o (t, ca, q, v') b.
  Proof. intros Hd Hs [n Hn]. exists n. eapply venc_shuffle; eauto. Qed.
End Shuffle.
