(** UnsortedMap: the same encoding but for the order of members. *)
From Coq Require Import Permutation Sorted.
From Verif Require Import Base Utf8 JsonSpec OptionsModel EscapeModel CompactModel JsonParse NumberModel IntModel DurationModel TimeModel FloatModel Base64Model TypesModel TypesFacts TagsModel LeafModel MemModel FieldsModel FieldsProof InstrModel ExecModel ValueModel
  ExecMono ExecProof VencFacts MarshalThm DocSpec EntriesFacts PartFacts DocProof SafeProof ApiFacts PartsThm ShapeThm ShuffleThm.

Definition unsorted_of (o o' : encOpts) : Prop := o' = set_flag o unsortedMap.

Section Order.
  Variable H : host.
  Variable vcall : mkind -> typ -> val -> option Z -> bytes + Z.
  Variables o o' : encOpts.
  Notation E := (h_env H).

  (** o' is o with UnsortedMap. *)
  Hypothesis EO : unsorted_of o o'.

  Lemma has_other b : Z.land unsortedMap b = 0 -> has (o_flags o') b = has (o_flags o) b.
  Proof. intros Hb. rewrite EO. unfold has, set_flag, bm_set. cbn [o_flags]. rewrite Z.land_lor_distr_l, Hb, Z.lor_0_r. reflexivity. Qed.

  Lemma o_same : o_ctx o' = o_ctx o /\ o_timeLayout o' = o_timeLayout o /\ o_durationFmt o' = o_durationFmt o /\ o_allow o' = o_allow o /\ o_deny o' = o_deny o /\
    Forall (fun b => has (o_flags o') b = has (o_flags o) b)
      [unixTime; rawByteSlice; byteArrayAsString; nilMapEmpty; nilSliceEmpty; noStringEscaping; noHTMLEscaping; noUTF8Coercion; noCompact; noNumberValidation] /\ has (o_flags o') unsortedMap = true.
  Proof.
    split; [rewrite EO; reflexivity|]. split; [rewrite EO; reflexivity|]. split; [rewrite EO; reflexivity|]. split; [rewrite EO; reflexivity|]. split; [rewrite EO; reflexivity|].
    split; [repeat (constructor; [apply has_other; reflexivity|]); constructor|].
    rewrite EO. unfold has, set_flag, bm_set. cbn [o_flags]. rewrite Z.land_lor_distr_l. change (Z.land unsortedMap unsortedMap) with 2.
    destruct (Z.lor (Z.land (o_flags o) unsortedMap) 2 =? 0) eqn:C; [|reflexivity]. apply Z.eqb_eq in C. apply Z.lor_eq_0_iff in C. lia.
  Qed.

  Lemma has_all b : In b [unixTime; rawByteSlice; byteArrayAsString; nilMapEmpty; nilSliceEmpty; noStringEscaping; noHTMLEscaping; noUTF8Coercion; noCompact; noNumberValidation] ->
    has (o_flags o') b = has (o_flags o) b.
  Proof. destruct o_same as (_ & _ & _ & _ & _ & Hf & _). rewrite Forall_forall in Hf. apply Hf. Qed.

  Ltac flags := rewrite ?(has_all _ ltac:(cbn; tauto)).

  Lemma escape_same dst s : appendEscapedBytes dst s o' = appendEscapedBytes dst s o.
  Proof.
    unfold appendEscapedBytes, appendEscapedBytes_opt. rewrite (has_all noStringEscaping), (has_all noUTF8Coercion), (has_all noHTMLEscaping) by (cbn; tauto). reflexivity.
  Qed.
  Lemma string_same dst s : encode_string dst s o' = encode_string dst s o.
  Proof. unfold encode_string. rewrite escape_same. reflexivity. Qed.
  Lemma quoted_string_same dst s : encode_quoted_string dst s o' = encode_quoted_string dst s o.
  Proof. unfold encode_quoted_string. rewrite escape_same. reflexivity. Qed.
  Lemma number_same s dst : encode_number s dst o' = encode_number s dst o.
  Proof. unfold encode_number. rewrite (has_all noNumberValidation) by (cbn; tauto). reflexivity. Qed.
  Lemma raw_same v dst : encode_raw_message v dst o' = encode_raw_message v dst o.
  Proof. unfold encode_raw_message. rewrite (has_all noCompact), (has_all noHTMLEscaping) by (cbn; tauto). reflexivity. Qed.
  Lemma json_same t r dst : encode_json_result t r dst o' = encode_json_result t r dst o.
  Proof. unfold encode_json_result. rewrite (has_all noCompact), (has_all noHTMLEscaping) by (cbn; tauto). reflexivity. Qed.
  Lemma text_same t r dst : encode_text_result t r dst o' = encode_text_result t r dst o.
  Proof. reflexivity. Qed.
  Lemma duration_same sh tf d dst : encode_duration sh tf d dst o' = encode_duration sh tf d dst o.
  Proof. unfold encode_duration. destruct o_same as (_ & _ & -> & _). reflexivity. Qed.
  Lemma time_same fmt g dst : encode_time fmt g dst o' = encode_time fmt g dst o.
  Proof. unfold encode_time. destruct o_same as (_ & -> & _). rewrite (has_all unixTime) by (cbn; tauto). reflexivity. Qed.
  Lemma bytes_same b dst : encode_byte_slice b dst o' = encode_byte_slice b dst o.
  Proof. unfold encode_byte_slice. destruct b; [|reflexivity]. rewrite (has_all rawByteSlice), escape_same by (cbn; tauto). reflexivity. Qed.
  Lemma denied_same n : isDeniedField o' n = isDeniedField o n.
  Proof. unfold isDeniedField. destruct o_same as (_ & _ & _ & -> & -> & _). reflexivity. Qed.
  Lemma key_text_same n : ValueModel.key_text o' n = ValueModel.key_text o n.
  Proof. unfold ValueModel.key_text. rewrite (has_all noHTMLEscaping) by (cbn; tauto). reflexivity. Qed.
  Lemma method_same k t td v : vmethod vcall o' k t td v = vmethod vcall o k t td v.
  Proof. unfold vmethod. destruct k; [destruct o_same as (-> & _); reflexivity | reflexivity | rewrite json_same; reflexivity | reflexivity]. Qed.
  Lemma marshaler_same n k t hp v : vmarshaler H vcall o' n k t hp v = vmarshaler H vcall o n k t hp v.
  Proof.
    unfold vmarshaler. destruct hp; [apply method_same|].
    destruct (under E t); try (destruct (is_direct H n t) as [[|]|]; try reflexivity; apply method_same); destruct v; try reflexivity; apply method_same.
  Qed.

  (** ** The same errors *)
  Definition err_rel (r r' : vres) : Prop :=
    match r, r' with
    | VOut, _ | _, VOut => True
    | VRet _ e, VRet _ e' => e = e'
    | VFuel, VFuel => True
    | _, _ => False
    end.

  Lemma err_refl r : err_rel r r.
  Proof. destruct r; cbn; auto. Qed.
  Lemma err_then pre pre' r r' k k' : err_rel r r' -> (forall b b', err_rel (k b) (k' b')) -> err_rel (vthen pre r k) (vthen pre' r' k').
  Proof.
    intros Hr Hk. unfold vthen. destruct r as [b [e|]| |], r' as [b' [e'|]| |]; cbn in Hr |- *; try contradiction; try discriminate; auto; try apply Hk.
    all: try (destruct (k _); exact I); try (destruct (k' _); exact I).
  Qed.
  Lemma err_out_r r : err_rel r VOut.
  Proof. destruct r; exact I. Qed.
  Lemma err_quote q r r' : err_rel r r' -> err_rel (vquote_if q r) (vquote_if q r').
  Proof. destruct q; [|auto]. destruct r as [b [e|]| |], r' as [b' [e'|]| |]; cbn; auto; discriminate. Qed.

  Section ErrRec.
    Variable n : nat.
    Notation rec := (venc H vcall o n).
    Notation rec' := (venc H vcall o' n).
    Hypothesis IH : forall t ca q v, err_rel (rec t ca q v) (rec' t ca q v).

    Lemma err_any k t v : err_rel (vany H rec k t v) (vany H rec' k t v).
    Proof. unfold vany. destruct (is_direct H k t); [|exact I]. destruct (isInlined H k t); [|exact I]. destruct (_ || _); [apply IH | exact I]. Qed.

    Lemma err_elems e ca vs : forall first out out', err_rel (velems rec e ca vs first out) (velems rec' e ca vs first out').
    Proof. induction vs as [|v vs IHv]; intros first out out'; cbn [velems]; [reflexivity|]. apply err_then; [apply IH | intros; apply IHv]. Qed.

    Lemma err_fields t ca v fs : forall first out out', err_rel (vfields H o rec t ca v fs first out) (vfields H o' rec' t ca v fs first out').
    Proof.
      induction fs as [|f fs IHf]; intros first out out'; cbn [vfields]; [reflexivity|]. rewrite denied_same. destruct (isDeniedField o (f_name f)); [apply IHf|].
      destruct (negb (right_seq H t f)); [exact I|]. destruct (vget (f_index f) v) as [[x|]|]; [|apply IHf | exact I].
      destruct (type_by_index H t (f_index f)) as [ft|]; [|exact I]. destruct (f_omitNil f && vnil x); [apply IHf|]. destruct (f_omitEmpty f && vempty x); [apply IHf|].
      cbn zeta. assert (X := IH ft ca (f_quoted f && isBasicType E match under E ft with TPtr e => e | _ => ft end) x).
      destruct (rec ft ca _ x) as [b [e|]| |], (rec' ft ca _ x) as [b' [e'|]| |]; cbn in X; try contradiction; try discriminate; auto; try exact I; try apply err_out_r.
    Qed.

    Lemma err_key kt k : err_rel (vkey H o rec kt k) (vkey H o' rec' kt k).
    Proof.
      unfold vkey. destruct (isString E kt); [destruct k; try exact I; reflexivity|]. destruct (_ && _ && _); [reflexivity|]. apply err_quote, IH.
    Qed.

    Lemma err_entries es es' : has (o_flags o) unsortedMap = false -> Forall2 (fun a b => err_rel (fst a) (fst b) /\ err_rel (snd a) (snd b)) es es' ->
      err_rel (ventries H o es) (ventries H o' es').
    Proof.
      intros Srt Hf. unfold ventries. rewrite Srt. destruct o_same as (_ & _ & _ & _ & _ & _ & ->). apply err_then; [|intros; reflexivity].
      unfold vsorted. enough (G : forall first first' out out' acc, err_rel match vfill es acc with VFOk kvs => VRet (join_kvs (h_sort H kvs) first out) None | VFErr e => VRet out (Some e) | VFOut => VOut | VFFuel => VFuel end
        (vunsorted es' first' out')) by apply G.
      induction Hf as [|[k v] [k' v'] es es' [Hk Hv] _ IHf]; intros first first' out out' acc; [reflexivity|]. cbn [vfill vunsorted fst snd] in *. unfold vthen.
      destruct k as [kb [ke|]| |], k' as [kb' [ke'|]| |]; cbn in Hk; try contradiction; try discriminate; try exact I; try apply err_out_r; try exact Hk.
      destruct (length kb <? 2)%nat; [exact I|].
      destruct v as [vb [ve|]| |], v' as [vb' [ve'|]| |]; cbn in Hv; try contradiction; try discriminate; try exact I; try apply err_out_r; try exact Hv. apply IHf.
    Qed.

    Lemma err_kind t ca q v : has (o_flags o) unsortedMap = false -> err_rel (vkind H o rec n t ca q v) (vkind H o' rec' n t ca q v).
    Proof.
      intros Srt. unfold vkind. destruct (under E t) as [ |ik|fb| | | | | |ms|e|e|an e|kt et|fs|nn| | | | | ]; try apply err_refl.
      - destruct v; try exact I; try reflexivity.
      - destruct v; try exact I; try reflexivity. destruct ms; [exact I | apply err_any].
      - destruct v; try exact I; try reflexivity. apply IH.
      - destruct v; try exact I; [destruct (byte_elem H e); reflexivity|]. destruct (byte_elem H e); [destruct (vbytes vs); [reflexivity | exact I] | apply err_elems].
      - destruct v; try exact I. rewrite (has_all byteArrayAsString) by (cbn; tauto). destruct (byte_elem H e && _); [destruct (vbytes vs); [reflexivity | exact I] | apply err_elems].
      - destruct (key_ok H kt); cbn [negb]; [|reflexivity]. destruct v; try exact I; try reflexivity. destruct es as [|e es]; [reflexivity|].
        apply err_entries; [exact Srt|]. generalize (e :: es). induction l as [|[k x] l IHl]; constructor; [split; [apply err_key | apply IH] | exact IHl].
      - destruct v; try exact I. unfold vstruct. destruct (fields_of H t); [reflexivity|]. destruct (structFields H n t); [apply err_fields | exact I].
    Qed.

    Lemma err_sync es : has (o_flags o) unsortedMap = false ->
      err_rel (ventries H o (map (fun kv => (vsync_key H o rec n (fst kv), vsync_val H rec n (snd kv))) es))
        (ventries H o' (map (fun kv => (vsync_key H o' rec' n (fst kv), vsync_val H rec' n (snd kv))) es)).
    Proof.
      intros Srt. apply err_entries; [exact Srt|]. induction es as [|[k x] l IHl]; constructor; [split; cbn [fst snd] | exact IHl].
      - unfold vsync_key. destruct k; try exact I; try reflexivity. destruct (_ && _ && _); [reflexivity|]. destruct (isString E t); [destruct k; try exact I; reflexivity|]. apply err_quote, err_any.
      - unfold vsync_val. destruct x; try exact I. apply err_any.
    Qed.
  End ErrRec.

  Theorem venc_err_rel n : has (o_flags o) unsortedMap = false -> forall t ca q v, err_rel (venc H vcall o n t ca q v) (venc H vcall o' n t ca q v).
  Proof.
    intros Srt. induction n as [|n IH]; intros t ca q v; [exact I|]. cbn [venc]. destruct (native t).
    - unfold vnative. destruct t; try apply err_refl; destruct v; try apply err_refl; rewrite ?time_same, ?duration_same, ?number_same, ?raw_same; try apply err_refl.
      + destruct (vbytes vs); [rewrite raw_same; apply err_refl | exact I].
      + apply err_sync; auto.
    - destruct (method_of H t ca) as [[k hp]|]; [rewrite marshaler_same; apply err_refl | apply err_kind; auto].
  Qed.

  (** ** The same text, from another iteration order *)
  Definition deref (t : typ) : typ := match under E t with TPtr e => e | _ => t end.
  Definition elem (t : typ) : typ := match under E t with TSlice e | TArray _ e => e | _ => t end.
  Definition kelem (t : typ) : typ * typ := match under E t with TMap k e => (k, e) | _ => (t, t) end.
  Definition ftype (t : typ) (i : nat) : typ := match nth_error (fields_of H (deref t)) i with Some (_, u) => u | None => t end.

  Variable N : nat.
  Notation recN := (venc H vcall o N).
  Definition mapF (rec : typ -> bool -> bool -> val -> vres) (t : typ) (kv : val * val) : vres * vres :=
    (vkey H o rec (fst (kelem t)) (fst kv), rec (snd (kelem t)) false false (snd kv)).
  Definition syncF (rec : typ -> bool -> bool -> val -> vres) (n : nat) (kv : val * val) : vres * vres := (vsync_key H o rec n (fst kv), vsync_val H rec n (snd kv)).

  (** The order in which the sorted encoder writes entries. *)
  Definition arranged (F : val * val -> vres * vres) (es es1 : list (val * val)) : Prop :=
    Permutation es es1 /\
    (forall kvs, Forall2 gives (map F es) kvs -> exists kvs1, Forall2 gives (map F es1) kvs1 /\ map sortable kvs1 = h_sort H (map sortable kvs)).

  Inductive arr : typ -> val -> val -> Prop :=
  | ar_leaf t v : match v with VPtr _ | VIface _ _ | VSlice _ | VArr _ | VMap _ | VStruct _ | VSync _ => False | _ => True end -> arr t v v
  | ar_ptr t v v' : arr (deref t) v v' -> arr t (VPtr v) (VPtr v')
  | ar_iface t td v v' : arr td v v' -> arr t (VIface td v) (VIface td v')
  | ar_slice t vs vs' : Forall2 (arr (elem t)) vs vs' -> arr t (VSlice vs) (VSlice vs')
  | ar_arr t vs vs' : Forall2 (arr (elem t)) vs vs' -> arr t (VArr vs) (VArr vs')
  | ar_struct t vs vs' : length vs = length vs' -> (forall i x x', nth_error vs i = Some x -> nth_error vs' i = Some x' -> arr (ftype t i) x x') -> arr t (VStruct vs) (VStruct vs')
  | ar_map t es es1 es2 : arranged (mapF recN t) es es1 ->
      Forall2 (fun a b => arr (fst (kelem t)) (fst a) (fst b) /\ arr (snd (kelem t)) (snd a) (snd b)) es1 es2 -> arr t (VMap es) (VMap es2)
  | ar_sync t es es1 es2 : arranged (syncF recN N) es es1 ->
      Forall2 (fun a b => arr t (fst a) (fst b) /\ arr t (snd a) (snd b)) es1 es2 -> arr t (VSync es) (VSync es2).

  Hypothesis SO : sort_ok H.

  Lemma gives_det e kv kv' : gives e kv -> gives e kv' -> kv = kv'.
  Proof. intros [A1 A2] [B1 B2]. rewrite A1 in B1. rewrite A2 in B2. injection B1 as E1. injection B2 as E2. destruct kv, kv'; cbn in *; congruence. Qed.

  Lemma gives_all_det es : forall kvs kvs', Forall2 gives es kvs -> Forall2 gives es kvs' -> kvs = kvs'.
  Proof.
    induction es as [|e es IH]; intros kvs kvs' H1 H2; inversion H1; inversion H2; subst; [reflexivity|]. f_equal; [eapply gives_det; eauto | eapply IH; eauto].
  Qed.

  Lemma gives_dec e : (exists kv, gives e kv) \/ (forall kv, ~ gives e kv).
  Proof.
    destruct e as [[kb [ke|]| |] [vb [ve|]| |]]; try (right; intros kv [A1 A2]; cbn in *; discriminate). left. exists (kb, vb). split; reflexivity.
  Qed.
  Lemma gives_all_dec es : (exists kvs, Forall2 gives es kvs) \/ (forall kvs, ~ Forall2 gives es kvs).
  Proof.
    induction es as [|e es [[kvs Hk]|Hn]]; [left; exists []; constructor | |right; intros kvs X; inversion X; subst; eapply Hn; eauto].
    destruct (gives_dec e) as [[kv He]|He]; [left; exists (kv :: kvs); constructor; assumption | right; intros l X; inversion X; subst; eapply He; eauto].
  Qed.

  Lemma arranged_ex F es : exists es1, arranged F es es1.
  Proof.
    destruct (gives_all_dec (map F es)) as [[kvs Hk]|Hn]; [|exists es; split; [reflexivity | intros kvs X; destruct (Hn _ X)]].
    destruct (SO (map sortable kvs)) as [Hp _]. apply Permutation_sym, Permutation_map_inv in Hp. destruct Hp as (kvs1 & E1 & Hp).
    assert (Hf : Forall2 (fun kv e => gives (F e) kv) kvs es).
    { clear - Hk. revert kvs Hk. induction es as [|e es IH]; intros kvs Hk; cbn [map] in Hk; inversion Hk; subst; constructor; auto. }
    destruct (Forall2_perm _ _ _ Hp _ Hf) as (es1 & G1 & G2). exists es1. split; [exact G2|]. intros kvs' Hk'. rewrite (gives_all_det _ _ _ Hk' Hk). exists kvs1. split; [|symmetry; exact E1].
    clear - G1. induction G1; cbn [map]; constructor; auto.
  Qed.

  Lemma arr_ex s : forall t v, (vsize v < s)%nat -> exists v', arr t v v'.
  Proof.
    induction s as [|s IH]; intros t v Hs; [lia|].
    assert (L : forall (T : typ) vs, (S (fold_right (fun v n => (vsize v + n)%nat) 0%nat vs) < S s)%nat -> exists vs', Forall2 (arr T) vs vs').
    { intros T vs Hv. assert (G : forall v, In v vs -> (vsize v < s)%nat) by (intros x Hx; assert (X := vsize_in _ _ Hx); lia). clear Hv.
      induction vs as [|x vs IHv]; [exists []; constructor|]. destruct (IHv ltac:(intros y Hy; apply G; right; exact Hy)) as [vs' Hv']. destruct (IH T x (G x (or_introl eq_refl))) as [x' Hx']. exists (x' :: vs'). constructor; assumption. }
    assert (L2 : forall (T1 T2 : typ) es, (forall a, In a es -> (vsize (fst a) < s /\ vsize (snd a) < s)%nat) ->
       exists es2, Forall2 (fun a b => arr T1 (fst a) (fst b) /\ arr T2 (snd a) (snd b)) es es2).
    { intros T1 T2 es G. induction es as [|[k x] es IHv]; [exists []; constructor|]. destruct (IHv ltac:(intros y Hy; apply G; right; exact Hy)) as [es' Hv'].
      destruct (G _ (or_introl eq_refl)) as [G1 G2]. destruct (IH T1 k G1) as [k' Hk']. destruct (IH T2 x G2) as [x' Hx']. exists ((k', x') :: es'). constructor; [split; assumption | assumption]. }
    destruct v; try (eexists; apply ar_leaf; exact I); cbn [vsize] in Hs.
    - destruct (IH (deref t) v ltac:(lia)) as [v' Hv]. exists (VPtr v'). constructor. exact Hv.
    - destruct (IH t0 v ltac:(lia)) as [v' Hv]. exists (VIface t0 v'). constructor. exact Hv.
    - destruct (L (elem t) vs Hs) as [vs' Hv]. exists (VSlice vs'). constructor. exact Hv.
    - destruct (L (elem t) vs Hs) as [vs' Hv]. exists (VArr vs'). constructor. exact Hv.
    - destruct (arranged_ex (mapF recN t) es) as [es1 A1]. destruct (L2 (fst (kelem t)) (snd (kelem t)) es1) as [es2 A2].
      { intros [k x] Ha. apply (Permutation_in _ (Permutation_sym (proj1 A1))) in Ha. assert (X := vsize_entry _ _ _ Ha). cbn [fst snd]. lia. }
      exists (VMap es2). econstructor; eauto.
    - assert (G : forall v, In v vs -> (vsize v < s)%nat) by (intros x Hx; assert (X := vsize_in _ _ Hx); lia). clear Hs L L2.
      assert (G2 : forall F : nat -> typ, exists vs', length vs = length vs' /\ forall i x x', nth_error vs i = Some x -> nth_error vs' i = Some x' -> arr (F i) x x').
      { induction vs as [|x vs IHv]; intros F; [exists []; split; [reflexivity | intros [|i] x x' X; discriminate X]|].
        destruct (IHv ltac:(intros y Hy; apply G; right; exact Hy) (fun i => F (S i))) as (vs' & Q1 & Q2). destruct (IH (F 0%nat) x (G x (or_introl eq_refl))) as [x' Hx'].
        exists (x' :: vs'). split; [cbn; congruence|]. intros [|i] y y' Y1 Y2; cbn in Y1, Y2; [congruence | eauto]. }
      destruct (G2 (ftype t)) as (vs' & Q1 & Q2). exists (VStruct vs'). constructor; assumption.
    - destruct (arranged_ex (syncF recN N) es) as [es1 A1]. destruct (L2 t t es1) as [es2 A2].
      { intros [k x] Ha. apply (Permutation_in _ (Permutation_sym (proj1 A1))) in Ha. assert (X := vsize_entry _ _ _ Ha). cbn [fst snd]. lia. }
      exists (VSync es2). econstructor; eauto.
  Qed.

  Lemma arr_shuffle s : forall t v v', (vsize v < s)%nat -> arr t v v' -> shuffle v v'.
  Proof.
    induction s as [|s IH]; intros t v v' Hs Ha; [lia|].
    assert (L2 : forall (T1 T2 : typ) es es2, (forall a, In a es -> (vsize (fst a) < s /\ vsize (snd a) < s)%nat) ->
       Forall2 (fun a b => arr T1 (fst a) (fst b) /\ arr T2 (snd a) (snd b)) es es2 -> Forall2 (fun a b => shuffle (fst a) (fst b) /\ shuffle (snd a) (snd b)) es es2).
    { intros T1 T2 es es2 G Hf. induction Hf as [|a b es es2 [H1 H2] _ IHf]; constructor; [|apply IHf; intros y Hy; apply G; right; exact Hy].
      destruct (G _ (or_introl eq_refl)) as [G1 G2]. split; eapply IH; eauto. }
    assert (L : forall (T : typ) vs vs', (S (fold_right (fun v n => (vsize v + n)%nat) 0%nat vs) < S s)%nat -> Forall2 (arr T) vs vs' -> Forall2 shuffle vs vs').
    { intros T vs vs' Hv Hf. assert (G : forall v, In v vs -> (vsize v < s)%nat) by (intros x Hx; assert (X := vsize_in _ _ Hx); lia). clear Hv.
      induction Hf as [|x x' vs vs' Hx _ IHf]; constructor; [eapply IH; [apply G; left; reflexivity | exact Hx] | apply IHf; intros y Hy; apply G; right; exact Hy]. }
    destruct Ha as [ | | |t vs vs' Hf|t vs vs' Hf|t vs vs' Hl Hf|t es es1 es2 [Hp Hg] Hf|t es es1 es2 [Hp Hg] Hf]; cbn [vsize] in Hs.
    - apply sh_refl.
    - constructor. eapply IH; [|eassumption]. lia.
    - constructor. eapply IH; [|eassumption]. lia.
    - constructor. eauto.
    - constructor. eauto.
    - constructor. assert (G : forall v, In v vs -> (vsize v < s)%nat) by (intros x Hx; assert (X := vsize_in _ _ Hx); lia). clear Hs L L2.
      revert vs' Hl Hf. generalize (ftype t) as F. induction vs as [|x vs IHv]; intros F [|x' vs'] Hl Hf; try discriminate Hl; constructor.
      + eapply IH; [apply G; left; reflexivity | exact (Hf 0%nat x x' eq_refl eq_refl)].
      + apply (IHv ltac:(intros y Hy; apply G; right; exact Hy) (fun i => F (S i))); [cbn in Hl; congruence|]. intros i y y' Y1 Y2. exact (Hf (S i) y y' Y1 Y2).
    - econstructor; [exact Hp|]. eapply L2; [|exact Hf]. intros [k x] Ha. apply (Permutation_in _ (Permutation_sym Hp)) in Ha. assert (X := vsize_entry _ _ _ Ha). cbn [fst snd]. lia.
    - econstructor; [exact Hp|]. eapply L2; [|exact Hf]. intros [k x] Ha. apply (Permutation_in _ (Permutation_sym Hp)) in Ha. assert (X := vsize_entry _ _ _ Ha). cbn [fst snd]. lia.
  Qed.

  Lemma arr_shuf t v v' : arr t v v' -> shuffle v v'.
  Proof. apply (arr_shuffle (S (vsize v))). lia. Qed.

  Lemma arr_get p : forall t v v' x ft, arr t v v' -> vget p v = Some (Some x) -> type_by_index H t p = Some ft -> exists x', vget p v' = Some (Some x') /\ arr ft x x'.
  Proof.
    induction p as [|i p IH]; intros t v v' x ft Ha Hg Ht; cbn [vget type_by_index] in *; [injection Hg as <-; injection Ht as <-; eauto|].
    destruct v; try discriminate. inversion Ha as [? ? Hbad| | | | |? ? vs' Hl Hf| |]; subst; [destruct Hbad|].
    destruct (nth_error vs i) as [y|] eqn:En; [|discriminate]. destruct (nth_error vs' i) as [y'|] eqn:En'; [|apply nth_error_None in En'; assert (X := proj1 (nth_error_Some vs i)); rewrite En in X; specialize (X ltac:(discriminate)); lia].
    assert (Hy := Hf i y y' En En'). unfold ftype in Hy. fold (deref t) in Ht. destruct (nth_error (fields_of H (deref t)) i) as [[d u]|] eqn:Ef; [|discriminate].
    destruct p as [|j p]; [injection Hg as <-; cbn in Ht; injection Ht as <-; exists y'; split; [reflexivity | exact Hy]|].
    destruct y; try (inversion Hy; subst; eapply IH; eauto; fail); try discriminate.
    inversion Hy as [? ? Hbad|? ? v' Hv| | | | | |]; subst; [destruct Hbad|]. eapply IH; [exact Hv | exact Hg|].
    cbn [type_by_index] in *. fold (deref u) in Ht. fold (deref (deref u)). destruct (nth_error (fields_of H (deref u)) j) as [[d' u']|] eqn:Ej; [|discriminate].
    assert (Ed : deref (deref u) = deref u).
    { unfold deref at 1. unfold fields_of in Ej. destruct (under E (deref u)); try (destruct j; discriminate Ej); reflexivity. }
    rewrite Ed, Ej. exact Ht.
  Qed.

  Variable Ins : insensitive vcall.
  Hypothesis Srt : has (o_flags o) unsortedMap = false.

  Lemma ventries_unsorted es out : ventries H o' es = VRet out None <-> exists kvs, Forall2 gives es kvs /\ out = [123] ++ join_members kvs ++ [125].
  Proof.
    unfold ventries, vthen. destruct o_same as (_ & _ & _ & _ & _ & _ & ->). split.
    - destruct (vunsorted es true [123]) as [b [e|]| |] eqn:Eu; try discriminate. intros [= <-]. apply vunsorted_ret in Eu. destruct Eu as (kvs & A1 & ->). exists kvs. split; [exact A1|].
      rewrite tail_members_true, <- app_assoc. reflexivity.
    - intros (kvs & A1 & ->). rewrite (proj2 (vunsorted_ret es true [123] _) (ex_intro _ kvs (conj A1 eq_refl))). rewrite tail_members_true. reflexivity.
  Qed.

  (** G: the unsorted encoder; Fn: the sorted one at the fuel at hand. *)
  Lemma entries_arranged (Fn FN G : val * val -> vres * vres) es es1 es2 out :
    (forall e kv, gives (Fn e) kv -> gives (FN e) kv) -> arranged FN es es1 ->
    Forall2 (fun a b => forall kv, In a es -> gives (Fn a) kv -> gives (G b) kv) es1 es2 ->
    ventries H o (map Fn es) = VRet out None -> ventries H o' (map G es2) = VRet out None.
  Proof.
    intros Hm [Hp Hg] Hf Hr. apply (ventries_sorted H o Srt) in Hr. destruct Hr as (kvs & A1 & A2 & ->). apply ventries_unsorted.
    assert (A1' : Forall2 gives (map FN es) kvs).
    { clear - A1 Hm. revert kvs A1. induction es as [|a l IH]; intros kvs A1; cbn [map] in *; inversion A1; subst; constructor; auto. }
    destruct (Hg kvs A1') as (kvs1 & B1 & B2). exists kvs1. split.
    - assert (X : forall a kv, In a es -> gives (FN a) kv -> gives (Fn a) kv).
      { clear - A1 Hm. revert kvs A1. induction es as [|a l IH]; intros kvs A1 b kv Hi Hb; [destruct Hi|]. cbn [map] in A1. inversion A1; subst.
        destruct Hi as [->|Hi]; [|eapply IH; eauto]. match goal with Q : gives (Fn b) ?y |- _ => rewrite (gives_det _ _ _ Hb (Hm _ _ Q)); exact Q end. }
      assert (In1 : forall a, In a es1 -> In a es) by (intros a Ha; eapply Permutation_in; [apply Permutation_sym, Hp | exact Ha]).
      clear - X In1 B1 Hf. revert kvs1 B1. induction Hf as [|a b l1 l2 Hab _ IH]; intros kvs1 B1; cbn [map] in *; inversion B1; subst; constructor.
      + apply Hab; [apply In1; left; reflexivity|]. apply X; [apply In1; left; reflexivity | assumption].
      + apply IH; [intros c Hc; apply In1; right; exact Hc | assumption].
    - rewrite <- B2, join_kvs_spec, tail_members_true. reflexivity.
  Qed.

  Section ArrRec.
    Variable n : nat.
    Hypothesis HN : (n <= N)%nat.
    Notation rec := (venc H vcall o n).
    Notation rec' := (venc H vcall o' n).
    Hypothesis IH : forall t ca q v v' b, arr t v v' -> rec t ca q v = VRet b None -> rec' t ca q v' = VRet b None.

    Lemma vany_arr t v v' b : arr t v v' -> vany H rec n t v = VRet b None -> vany H rec' n t v' = VRet b None.
    Proof. unfold vany. intros Ha. destruct (is_direct H n t); [|discriminate]. destruct (isInlined H n t); [|discriminate]. destruct (_ || _); [apply IH, Ha | discriminate]. Qed.

    Lemma velems_arr e ca vs vs' : Forall2 (arr e) vs vs' -> forall first out0 out, velems rec e ca vs first out0 = VRet out None -> velems rec' e ca vs' first out0 = VRet out None.
    Proof.
      induction 1 as [|v v' vs vs' Hs _ IHf]; intros first out0 out Hr; [exact Hr|]. cbn [velems] in *. unfold vthen in *.
      destruct (rec e ca false v) as [b [er|]| |] eqn:Er; try discriminate. rewrite (IH e ca false v v' b Hs Er). apply IHf, Hr.
    Qed.

    Lemma vfields_arr t ca v v' fs : arr t v v' -> forall first out0 out, vfields H o rec t ca v fs first out0 = VRet out None -> vfields H o' rec' t ca v' fs first out0 = VRet out None.
    Proof.
      intros Ha. induction fs as [|f fs IHf]; intros first out0 out Hr; [exact Hr|]. cbn [vfields] in *. rewrite denied_same.
      destruct (isDeniedField o (f_name f)) eqn:Ed; [apply IHf, Hr|]. destruct (negb (right_seq H t f)); [discriminate|].
      destruct (vget (f_index f) v) as [r|] eqn:Ev; [|discriminate]. destruct (shuffle_get _ _ _ _ (arr_shuf _ _ _ Ha) Ev) as (r' & Ev' & Hx).
      destruct r as [x|], r' as [x'|]; try contradiction; [|rewrite Ev'; apply IHf; exact Hr].
      destruct (type_by_index H t (f_index f)) as [ft|] eqn:Et; [|discriminate]. destruct (arr_get _ _ _ _ _ _ Ha Ev Et) as (x2 & Ev2 & Hx2). assert (x2 = x') by congruence. subst x2.
      rewrite Ev'. rewrite <- (shuffle_nil _ _ Hx), <- (shuffle_empty _ _ Hx).
      destruct (f_omitNil f && vnil x) eqn:En; [apply IHf, Hr|]. destruct (f_omitEmpty f && vempty x) eqn:Ee; [apply IHf, Hr|].
      cbn zeta in *. destruct (rec ft ca _ x) as [b [er|]| |] eqn:Er; try discriminate. rewrite (IH _ _ _ _ x' b Hx2 Er). rewrite key_text_same. apply IHf, Hr.
    Qed.

    Lemma vkey_arr kt k k' b : arr kt k k' -> vkey H o rec kt k = VRet b None -> vkey H o' rec' kt k' = VRet b None.
    Proof.
      intros Ha. assert (Hs := arr_shuf _ _ _ Ha). unfold vkey. rewrite <- (shuffle_nil _ _ Hs). destruct (isString E kt) eqn:Es; [destruct k; try discriminate; inversion Hs; subst; rewrite string_same; auto|].
      destruct (h_impl H kt MText && is_ptr H kt && vnil k) eqn:En; [auto|]. intros Hr. apply vquote_if_none in Hr. destruct Hr as (b' & Hr & ->).
      rewrite (IH _ _ _ _ k' b' Ha Hr). destruct (h_impl H kt MText); reflexivity.
    Qed.

    Lemma rec_N t ca q v b : rec t ca q v = VRet b None -> recN t ca q v = VRet b None.
    Proof. intros Hr. rewrite (venc_mono H vcall o n N); [exact Hr | exact HN | congruence]. Qed.
    Lemma vany_N t v b : vany H rec n t v = VRet b None -> vany H recN N t v = VRet b None.
    Proof.
      intros Hr. destruct (vany_mono H rec recN n N t v (venc_step_mono H vcall o n N HN) HN) as [X|X]; congruence.
    Qed.

    Lemma mapF_N t e kv : gives (mapF rec t e) kv -> gives (mapF recN t e) kv.
    Proof.
      intros [G1 G2]. cbn [mapF fst snd] in *. split; cbn [mapF fst snd]; [|apply rec_N, G2].
      destruct (vkey_mono H o rec recN (fst (kelem t)) (fst e) (venc_step_mono H vcall o n N HN)) as [X|X]; congruence.
    Qed.
    Lemma syncF_N e kv : gives (syncF rec n e) kv -> gives (syncF recN N e) kv.
    Proof.
      intros [G1 G2]. cbn [syncF fst snd] in *. split; cbn [syncF fst snd].
      - unfold vsync_key in *. destruct (fst e); try discriminate. destruct (_ && _ && _); [discriminate|]. destruct (isString E t); [exact G1|].
        apply vquote_if_none in G1. destruct G1 as (b' & G1 & G1'). rewrite (vany_N _ _ _ G1). rewrite G1'. destruct (h_impl H t MText); reflexivity.
      - unfold vsync_val in *. destruct (snd e); try discriminate. apply vany_N, G2.
    Qed.

    Lemma vkind_arr t ca q v v' b : arr t v v' -> vkind H o rec n t ca q v = VRet b None -> vkind H o' rec' n t ca q v' = VRet b None.
    Proof.
      intros Ha. assert (Hs := arr_shuf _ _ _ Ha). unfold vkind.
      destruct (under E t) as [ |ik|fb| | | | | |ms|e|e|an e|kt et|fs|nn| | | | | ] eqn:U; try (destruct v; try discriminate; inversion Hs; subst; rewrite ?string_same, ?quoted_string_same; auto; fail); auto.
      - destruct v; try discriminate; inversion Ha; subst; try contradiction; auto. destruct ms; [discriminate|]. apply vany_arr; assumption.
      - destruct v; try discriminate; inversion Ha; subst; try contradiction; auto. apply IH. replace e with (deref t) by (unfold deref; rewrite U; reflexivity). assumption.
      - destruct v; try discriminate; inversion Ha; subst; [rewrite (has_all nilSliceEmpty) by (cbn; tauto); auto | contradiction|]. destruct (byte_elem H e) eqn:B.
        + destruct (vbytes vs) as [bs|] eqn:Eb; [|discriminate]. assert (X : shuffle (VSlice vs) (VSlice vs')) by exact Hs. inversion X; subst.
          * rewrite Eb, bytes_same. auto.
          * rewrite (shuffle_bytes _ _ ltac:(eassumption) bs Eb), bytes_same. auto.
        + apply velems_arr. replace e with (elem t) by (unfold elem; rewrite U; reflexivity). assumption.
      - destruct v; try discriminate; inversion Ha; subst; [contradiction|]. rewrite (has_all byteArrayAsString) by (cbn; tauto). destruct (byte_elem H e && has (o_flags o) byteArrayAsString) eqn:B.
        + destruct (vbytes vs) as [bs|] eqn:Eb; [|discriminate]. inversion Hs; subst.
          * rewrite Eb, string_same. auto.
          * rewrite (shuffle_bytes _ _ ltac:(eassumption) bs Eb), string_same. auto.
        + apply velems_arr. replace e with (elem t) by (unfold elem; rewrite U; reflexivity). assumption.
      - destruct (key_ok H kt) eqn:K; cbn [negb]; [|discriminate]. destruct v; try discriminate; inversion Ha as [? ? Hbad| | | | | |? ? es1 es2 Hg Hf|]; subst.
        + rewrite (has_all nilMapEmpty) by (cbn; tauto). auto.
        + destruct Hbad.
        + intros Hr. destruct es as [|e0 es0].
          { destruct Hg as [Hp _]. apply Permutation_nil in Hp. subst es1. inversion Hf; subst. exact Hr. }
          assert (Hl : es2 <> []). { intros ->. inversion Hf; subst. destruct Hg as [Hp _]. apply Permutation_sym, Permutation_nil in Hp. discriminate Hp. }
          enough (X : ventries H o' (map (fun kv => (vkey H o' rec' kt (fst kv), rec' et false false (snd kv))) es2) = VRet b None) by (destruct es2; [congruence | exact X]).
          assert (Q : fst (kelem t) = kt /\ snd (kelem t) = et) by (unfold kelem; rewrite U; auto). destruct Q as [Q1 Q2].
          eapply (entries_arranged (mapF rec t) (mapF recN t) _ (e0 :: es0) es1 es2); [apply mapF_N | exact Hg | |].
          * clear Hr Hg Hl Hs Ha. induction Hf as [|[k x] [k' x'] l1 l2 [Hk Hx] _ IHf]; constructor; [|exact IHf]. intros [kb vb] _ [G1 G2]. cbn [mapF fst snd] in *. rewrite Q1 in *. rewrite Q2 in *. split; cbn [fst snd].
            -- eapply vkey_arr; eauto.
            -- eapply IH; eauto.
          * unfold mapF. rewrite Q1, Q2. exact Hr.
      - destruct v; try discriminate. inversion Ha as [? ? Hbad| | | | |? ? vs' Hl Hf| |]; subst; [destruct Hbad|]. unfold vstruct. destruct (fields_of H t); [auto|].
        destruct (structFields H n t) as [sf|] eqn:S; [|discriminate]. apply vfields_arr, Ha.
    Qed.
  End ArrRec.

  Theorem venc_arr n : (n <= N)%nat -> forall t ca q v v' b, arr t v v' -> venc H vcall o n t ca q v = VRet b None -> venc H vcall o' n t ca q v' = VRet b None.
  Proof.
    induction n as [|n IH0]; intros HN t ca q v v' b Ha; [discriminate|]. assert (HN' : (n <= N)%nat) by lia. specialize (IH0 HN'). cbn [venc]. assert (Hs := arr_shuf _ _ _ Ha). destruct (native t) eqn:Nt.
    - unfold vnative. destruct t; try discriminate Nt; destruct v; try discriminate; inversion Ha as [? ? Hbad| | |? ? vs' Hf| | | |? ? es1 es2 Hg Hf]; subst; rewrite ?time_same, ?duration_same, ?number_same, ?raw_same; auto; try (destruct Hbad; fail).
      + destruct (vbytes vs) as [bs|] eqn:Eb; [|discriminate]. assert (X : vbytes vs' = Some bs) by (inversion Hs; subst; [exact Eb | eapply shuffle_bytes; eauto]). rewrite X, raw_same. auto.
      + intros Hr. refine (entries_arranged (syncF (venc H vcall o n) n) (syncF recN N) _ es es1 es2 b _ Hg _ Hr); [apply syncF_N, HN'|].
        clear Hr Hg Hs Ha. induction Hf as [|[k x] [k' x'] l1 l2 [Hk Hx] _ IHf]; constructor; [|exact IHf]. intros [kb vb] _ [G1 G2]. cbn [syncF fst snd] in *. split; cbn [fst snd].
        * unfold vsync_key in *. destruct k; try discriminate. inversion Hk as [? ? Hbad| |? ? ? kv' Hkv| | | | |]; subst; [destruct Hbad|]. destruct (_ && _ && _); [discriminate|].
          destruct (isString E t) eqn:S0; [destruct k; try discriminate; inversion Hkv; subst; rewrite string_same; exact G1|].
          apply vquote_if_none in G1. destruct G1 as (b' & G1 & ->). rewrite (vany_arr n IH0 t k kv' b' Hkv G1). destruct (h_impl H t MText); reflexivity.
        * unfold vsync_val in *. destruct x; try discriminate. inversion Hx as [? ? Hbad| |? ? ? xv' Hxv| | | | |]; subst; [destruct Hbad|]. eapply vany_arr; eauto.
    - destruct (method_of H t ca) as [[k hp]|] eqn:M; [|apply vkind_arr; auto]. rewrite marshaler_same. apply shuffle_marshaler; auto.
  Qed.
End Order.

(** The sorted text is the unsorted text of the same value iterated in some order. *)
Theorem bytes_order H vcall o t ca q v b : sort_ok H -> insensitive vcall -> has (o_flags o) unsortedMap = false -> bytes_of H vcall o (t, ca, q, v) b ->
  exists v', shuffle v v' /\ bytes_of H vcall (set_flag o unsortedMap) (t, ca, q, v') b.
Proof.
  intros SO Ins Srt [n Hn]. destruct (arr_ex H vcall o n SO (S (vsize v)) t v ltac:(lia)) as [v' Ha]. exists v'. split; [eapply arr_shuf; eauto|].
  exists n. eapply (venc_arr H vcall o (set_flag o unsortedMap) eq_refl n Ins Srt n (le_n n)); eauto.
Qed.
