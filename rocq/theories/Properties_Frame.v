(** C16, on documents: an option changes nothing but the parts of the value it
    is about. *)
From Coq Require Import Permutation Sorted.
From Verif Require Import Base Utf8 JsonSpec NumberModel NumberProof OptionsModel EscapeModel EscapeProof JsonParse StrictParse CompactModel CompactProof IntModel IntProof TypesModel TypesFacts TagsModel CalendarSpec TimeModel TimeProof
  FloatModel FloatProof LeafModel LeafProof MemModel FieldsModel FieldsProof InstrModel ExecModel ValueModel ExecMono ExecProof HostFacts VencFacts MarshalThm DocSpec EntriesFacts DocLeaf PartFacts DocProof SafeProof ApiFacts
  PartsThm ShapeThm CallFacts MethodsThm ExampleHost ExampleConst ExampleRead Properties_Options Properties_Strings Properties_Numbers Properties_Fields Properties_Members Properties_Maps Properties_Api Properties_Marshalers TagsProof.

(** ** What the encoding of one node depends on *)
Section Frame.
  Variable H : host.
  Variable vcall : mkind -> typ -> val -> option Z -> bytes + Z.
  Hypothesis SO : sort_ok H.
  Variables o o' : encOpts.
  Notation E := (h_env H).
  Notation same f := (has (o_flags o) f = has (o_flags o') f).

  (** The texts a node writes as JSON strings: string values, string keys, and
      bytes under RawByteSlice or ByteArrayAsString. *)
  Inductive text_in : node -> bytes -> Prop :=
  | ti_string t ca q s : DocSpec.plain H t ca -> under E t = TString -> text_in (t, ca, q, VStr s) s
  | ti_slice t ca q e vs b : DocSpec.plain H t ca -> under E t = TSlice e -> byte_elem H e = true -> vbytes vs = Some b -> has (o_flags o) rawByteSlice = true -> text_in (t, ca, q, VSlice vs) b
  | ti_array t ca q n e vs b : DocSpec.plain H t ca -> under E t = TArray n e -> byte_elem H e = true -> vbytes vs = Some b -> has (o_flags o) byteArrayAsString = true -> text_in (t, ca, q, VArr vs) b
  | ti_key t ca q kt et es s x : DocSpec.plain H t ca -> under E t = TMap kt et -> isString E kt = true -> In (VStr s, x) es -> text_in (t, ca, q, VMap es) s
  | ti_skey ca q es kt s x : isString E kt = true -> In (VIface kt (VStr s), x) es -> text_in (TSyncMap, ca, q, VSync es) s.

  Definition same_text (s : bytes) : Prop := forall dst, appendEscapedBytes dst s o = appendEscapedBytes dst s o'.

  (** The settings a node depends on are the same. *)
  Definition same_for (x : node) : Prop :=
    let '(t, ca, q, v) := x in
    (forall s, text_in x s -> same_text s) /\
    (t = TTime -> same unixTime /\ o_timeLayout o = o_timeLayout o') /\
    (t = TDuration -> o_durationFmt o = o_durationFmt o') /\
    (t = TNumber -> forall s, v = VStr s -> same noNumberValidation \/ s = [] \/ jnumber s) /\
    (t = TRawMessage -> v = VNil \/ same noCompact /\ same noHTMLEscaping) /\
    (t = TSyncMap -> forall es, v = VSync es -> es = [] \/ same unsortedMap) /\
    (native t = false -> forall hp, method_of H t ca = Some (MCtx, hp) -> o_ctx o = o_ctx o') /\
    (native t = false -> forall hp, method_of H t ca = Some (MJson, hp) -> same noCompact /\ same noHTMLEscaping) /\
    (DocSpec.plain H t ca ->
      match under E t with
      | TSlice e => v = VNil /\ byte_elem H e = true \/ v <> VNil /\ byte_elem H e = false \/ if byte_elem H e then same rawByteSlice else same nilSliceEmpty
      | TArray _ e => byte_elem H e = true -> same byteArrayAsString
      | TMap kt et => (v = VNil -> same nilMapEmpty) /\ (forall es, v = VMap es -> es = [] \/ same unsortedMap)
      | TStruct _ => fields_of H t = [] \/ forall n fs, structFields H n t = Some fs ->
          Forall (fun f => isDeniedField o (f_name f) = isDeniedField o' (f_name f) /\ ValueModel.key_text o (f_name f) = ValueModel.key_text o' (f_name f)) fs
      | _ => True
      end).

  Lemma string_same dst s : same_text s -> encode_string dst s o = encode_string dst s o'.
  Proof. intros A. unfold encode_string. rewrite A. reflexivity. Qed.
  Lemma quoted_same dst s : same_text s -> encode_quoted_string dst s o = encode_quoted_string dst s o'.
  Proof. intros A. unfold encode_quoted_string. rewrite A. reflexivity. Qed.

  Lemma sort_nil : h_sort H [] = [].
  Proof. apply Permutation_nil. apply SO. Qed.

  Lemma entries_same es : es = [] \/ same unsortedMap -> ventries H o es = ventries H o' es.
  Proof.
    intros [-> |A]; [|unfold ventries; rewrite A; reflexivity].
    unfold ventries, vsorted. cbn [vfill vunsorted]. rewrite sort_nil. destruct (has (o_flags o) unsortedMap), (has (o_flags o') unsortedMap); reflexivity.
  Qed.

  Lemma number_same s dst : same noNumberValidation \/ s = [] \/ jnumber s -> encode_number s dst o = encode_number s dst o'.
  Proof.
    intros [A|A]; [unfold encode_number; rewrite A; reflexivity|]. unfold encode_number. set (n := match s with [] => [48] | _ => s end).
    assert (X : is_valid_number n = true). { subst n. destruct A as [-> |A]; [reflexivity|]. destruct s; [reflexivity | apply is_valid_number_correct, A]. }
    rewrite X. cbn [negb]. rewrite !andb_false_r. reflexivity.
  Qed.

  Lemma method_same k t td v : (k = MCtx -> o_ctx o = o_ctx o') -> (k = MJson -> same noCompact /\ same noHTMLEscaping) -> vmethod vcall o k t td v = vmethod vcall o' k t td v.
  Proof.
    intros A B. unfold vmethod. destruct k; [rewrite A by reflexivity; reflexivity | reflexivity | | reflexivity].
    destruct (B eq_refl) as [B1 B2]. unfold encode_json_result. rewrite B1, B2. reflexivity.
  Qed.
  Lemma marshaler_same n k t hp v : (k = MCtx -> o_ctx o = o_ctx o') -> (k = MJson -> same noCompact /\ same noHTMLEscaping) -> vmarshaler H vcall o n k t hp v = vmarshaler H vcall o' n k t hp v.
  Proof.
    intros A B. unfold vmarshaler. destruct hp; [apply method_same; assumption|].
    destruct (under E t); try (destruct (is_direct H n t) as [[|]|]; try reflexivity; apply method_same; assumption); destruct v; try reflexivity; apply method_same; assumption.
  Qed.

  Section Step.
    Variable n : nat.
    Notation rec := (venc H vcall o n).
    Notation rec' := (venc H vcall o' n).
    Notation agrees t ca q v := (rec t ca q v = rec' t ca q v).

    Lemma elems_same e ca vs : (forall v, In v vs -> agrees e ca false v) -> forall first out, velems rec e ca vs first out = velems rec' e ca vs first out.
    Proof.
      induction vs as [|v vs IH]; intros A first out; cbn [velems]; [reflexivity|]. rewrite (A v (or_introl eq_refl)).
      unfold vthen. destruct (rec' e ca false v) as [b [er|]| |]; try reflexivity. apply IH. intros w Hw. apply A. right. exact Hw.
    Qed.

    Lemma any_same k t v : agrees t (is_ptr H t) false v -> vany H rec k t v = vany H rec' k t v.
    Proof. intros A. unfold vany. destruct (is_direct H k t); [|reflexivity]. destruct (isInlined H k t); [|reflexivity]. rewrite A. reflexivity. Qed.

    Lemma fields_same t ca v fs :
      Forall (fun f => isDeniedField o (f_name f) = isDeniedField o' (f_name f) /\ ValueModel.key_text o (f_name f) = ValueModel.key_text o' (f_name f)) fs ->
      (forall f ft x, In f fs -> shown H o t v f ft x -> agrees ft ca (quoted H f ft) x) ->
      forall first out, vfields H o rec t ca v fs first out = vfields H o' rec' t ca v fs first out.
    Proof.
      induction 1 as [|f fs [D K] _ IH]; intros A first out; cbn [vfields]; [reflexivity|].
      assert (IH' := IH (fun g gt x Hg => A g gt x (or_intror Hg))). clear IH.
      rewrite <- D, <- K. destruct (isDeniedField o (f_name f)) eqn:Ed; [apply IH'|].
      destruct (negb (right_seq H t f)) eqn:Er; [reflexivity|]. destruct (vget (f_index f) v) as [[x|]|] eqn:Eg; [|apply IH' | reflexivity].
      destruct (type_by_index H t (f_index f)) as [ft|] eqn:Et; [|reflexivity].
      destruct (f_omitNil f && vnil x) eqn:En; [apply IH'|]. destruct (f_omitEmpty f && vempty x) eqn:Ee; [apply IH'|]. cbn zeta.
      assert (X : agrees ft ca (quoted H f ft) x).
      { apply (A f ft x (or_introl eq_refl)). split; [intros C; apply isDeniedField_spec in C; congruence|]. split; [split; assumption|].
        intros C. unfold dropped in C. destruct C as [[C1 C2]|[C1 C2]]; subst; rewrite C1, ?C2 in *; discriminate. }
      unfold quoted in X. rewrite X. destruct (rec' ft ca _ x) as [b [er|]| |]; try reflexivity. apply IH'.
    Qed.

    Lemma key_same kt k : (isString E kt = true -> forall s, k = VStr s -> same_text s) ->
      (isString E kt = false -> (h_impl H kt MText && is_ptr H kt && vnil k) = false -> agrees kt false false k) -> vkey H o rec kt k = vkey H o' rec' kt k.
    Proof.
      intros A B. unfold vkey. destruct (isString E kt); [destruct k; try reflexivity; rewrite (string_same _ _ (A eq_refl _ eq_refl)); reflexivity|].
      destruct (h_impl H kt MText && is_ptr H kt && vnil k); [reflexivity|]. rewrite B by reflexivity. reflexivity.
    Qed.
  End Step.

  Theorem venc_frame n : forall t ca q v, (forall y, part H o (t, ca, q, v) y -> same_for y) -> venc H vcall o n t ca q v = venc H vcall o' n t ca q v.
  Proof.
    induction n as [|n IH]; intros t ca q v A; [reflexivity|]. cbn [venc].
    assert (C : forall t' ca' q' v', child H o (t, ca, q, v) (t', ca', q', v') -> venc H vcall o n t' ca' q' v' = venc H vcall o' n t' ca' q' v').
    { intros t' ca' q' v' Hc. apply IH. intros y Hy. apply A. eapply part_step; eauto. }
    destruct (A _ (part_refl _ _ _)) as (Tx & Ti & Du & Nu & Ra & Sy & Mc & Mj & Pl). clear A IH.
    destruct (native t) eqn:Nt.
    - clear Mc Mj Pl. destruct t; try discriminate Nt; destruct v; try reflexivity; cbn [vnative].
      + destruct (Ti eq_refl) as [T1 T2]. unfold encode_time. rewrite T1, T2. reflexivity.
      + unfold encode_duration. rewrite Du by reflexivity. reflexivity.
      + rewrite (number_same _ _ (Nu eq_refl _ eq_refl)). reflexivity.
      + destruct (Ra eq_refl) as [R|[R1 R2]]; [discriminate|]. destruct (vbytes vs); [|reflexivity]. unfold encode_raw_message. rewrite R1, R2. reflexivity.
      + assert (X : map (fun kv => (vsync_key H o (venc H vcall o n) n (fst kv), vsync_val H (venc H vcall o n) n (snd kv))) es =
          map (fun kv => (vsync_key H o' (venc H vcall o' n) n (fst kv), vsync_val H (venc H vcall o' n) n (snd kv))) es).
        { apply map_ext_in. intros [k x] Hi. cbn [fst snd]. f_equal.
          - unfold vsync_key. destruct k; try reflexivity. destruct (isString E t) eqn:Es; cbn [negb andb].
            + destruct k; try reflexivity. rewrite (string_same [] s); [reflexivity|]. apply Tx. eapply ti_skey; eauto.
            + destruct (negb (isInteger E t) && negb (h_impl H t MText)) eqn:Ek; [reflexivity|]. rewrite (any_same n n t k); [reflexivity|].
              apply C. eapply ch_skey; [exact Hi | exact Es|]. destruct (isInteger E t), (h_impl H t MText); try discriminate Ek; reflexivity.
          - unfold vsync_val. destruct x; try reflexivity. apply any_same. apply C. eapply ch_sval. exact Hi. }
        rewrite X. apply entries_same. destruct (Sy eq_refl _ eq_refl) as [-> |S]; [left; reflexivity | right; exact S].
    - destruct (method_of H t ca) as [[k hp]|] eqn:Em.
      + apply marshaler_same; intros ->; [apply (Mc eq_refl hp eq_refl) | apply (Mj eq_refl hp eq_refl)].
      + assert (P : DocSpec.plain H t ca) by (split; assumption). specialize (Pl P). clear Mc Mj Ti Du Nu Ra Sy. unfold vkind.
        destruct (under E t) eqn:Eu; try reflexivity.
        * destruct v; try reflexivity. rewrite (string_same [] s), (quoted_same [] s); [reflexivity | |]; apply Tx; constructor; assumption.
        * destruct v; try reflexivity. match goal with |- context [match ?ms with Some _ => _ | None => _ end] => destruct ms; [reflexivity|] end. apply any_same, C. constructor; assumption.
        * destruct v; try reflexivity. apply C. constructor; assumption.
        * destruct v; try reflexivity.
          -- destruct (byte_elem H t0); [reflexivity|]. destruct Pl as [[_ D]|[[D _]|D]]; [discriminate | contradiction | rewrite D; reflexivity].
          -- destruct (byte_elem H t0) eqn:Eb.
             ++ destruct Pl as [[D _]|[[_ D]|D]]; [discriminate | discriminate|]. destruct (vbytes vs) as [b|] eqn:Ev; [|reflexivity]. unfold encode_byte_slice. rewrite <- D.
                destruct (has (o_flags o) rawByteSlice) eqn:Er; [|reflexivity]. rewrite (Tx b); [reflexivity|]. eapply ti_slice; eauto.
             ++ apply elems_same. intros w Hw. apply C. eapply ch_slice; eauto.
        * destruct v; try reflexivity. destruct (byte_elem H t0 && has (o_flags o) byteArrayAsString) eqn:Eb.
          -- apply andb_prop in Eb. destruct Eb as [E1 E2]. rewrite E1, <- (Pl E1), E2. cbn [andb]. destruct (vbytes vs) as [b|] eqn:Ev; [|reflexivity].
             rewrite (string_same [] b); [reflexivity|]. apply Tx. eapply ti_array; eauto.
          -- replace (byte_elem H t0 && has (o_flags o') byteArrayAsString) with false by (destruct (byte_elem H t0); [rewrite <- (Pl eq_refl); symmetry; exact Eb | reflexivity]).
             apply elems_same. intros w Hw. apply C. eapply ch_array; eauto.
        * destruct (key_ok H t0_1) eqn:Ek; cbn [negb]; [|reflexivity]. destruct Pl as [P1 P2]. destruct v; try reflexivity; [rewrite P1 by reflexivity; reflexivity|].
          destruct es as [|e0 es]; [reflexivity|]. set (es' := e0 :: es) in *. 
          assert (X : map (fun kv => (vkey H o (venc H vcall o n) t0_1 (fst kv), venc H vcall o n t0_2 false false (snd kv))) es' =
            map (fun kv => (vkey H o' (venc H vcall o' n) t0_1 (fst kv), venc H vcall o' n t0_2 false false (snd kv))) es').
          { apply map_ext_in. intros [k x] Hi. cbn [fst snd]. f_equal.
            - apply key_same; [intros Es s ->; apply Tx; eapply ti_key; eauto | intros Es En; apply C; eapply ch_key; eauto].
            - apply C. eapply ch_elem; eauto. }
          rewrite X. apply entries_same. destruct (P2 _ eq_refl) as [D|D]; [discriminate | right; exact D].
        * destruct v; try reflexivity. unfold vstruct. destruct (fields_of H t) eqn:Ef; [reflexivity|]. destruct Pl as [D|D]; [discriminate|].
          destruct (structFields H n t) as [fs'|] eqn:Es; [|reflexivity]. apply fields_same; [apply (D n), Es|].
          intros f ft x Hf Hs. apply C. eapply ch_field; eauto.
  Qed.
End Frame.

(** ** What each option is about *)
(** Texts an option makes no difference to. *)
Definition text_indifferent (x : option_) (s : bytes) : Prop :=
  match x with
  | ONoHTMLEscaping => Forall (fun c => c <> 38 /\ c <> 60 /\ c <> 62) s
  | ONoUTF8Coercion => exists rs, utf8_string s rs /\ Forall (fun r => r <> 0x2028 /\ r <> 0x2029) rs
  | ONoStringEscaping => exists rs, utf8_string s rs /\
      Forall (fun r => 0x20 <= r /\ r <> 34 /\ r <> 92 /\ r <> 38 /\ r <> 60 /\ r <> 62 /\ r <> 0x2028 /\ r <> 0x2029) rs
  | _ => True
  end.

(** Field names NoHTMLEscaping makes no difference to. *)
Definition name_indifferent (s : bytes) : Prop :=
  exists rs, utf8_string s rs /\ Forall (fun r => r <> 38 /\ r <> 60 /\ r <> 62 /\ r <> 0x2028 /\ r <> 0x2029) rs.

(** Nodes an option makes no difference to, by the documentation of the option
    (options.go:109-234), o being the other options in effect. *)
Definition indifferent (H : host) (o : encOpts) (x : option_) (y : node) : Prop :=
  let '(t, ca, q, v) := y in
  let E := h_env H in
  (forall s, text_in H o y s -> text_indifferent x s) /\
  match x with
  | OUnixTime | OTimeLayout _ => t <> TTime
  | ODurationFormat _ => t <> TDuration
  | OWithContext _ => native t = false -> ~ first_method H t ca MCtx
  | ONoNumberValidation => t = TNumber -> forall s, v = VStr s -> s = [] \/ jnumber s
  | ONoCompact => (t = TRawMessage -> v = VNil) /\ (native t = false -> ~ first_method H t ca MJson)
  | OUnsortedMap => (DocSpec.plain H t ca -> forall es, v = VMap es -> es = []) /\ (forall es, v = VSync es -> es = [])
  | ORawByteSlice => DocSpec.plain H t ca -> forall e, under E t = TSlice e -> byte_elem H e = true -> v = VNil
  | OByteArrayAsString => DocSpec.plain H t ca -> forall n e, under E t = TArray n e -> byte_elem H e = false
  | ONilMapEmpty => DocSpec.plain H t ca -> forall kt et, under E t = TMap kt et -> v <> VNil
  | ONilSliceEmpty => DocSpec.plain H t ca -> forall e, under E t = TSlice e -> byte_elem H e = false -> v <> VNil
  | OAllowList _ | ODenyList _ => DocSpec.plain H t ca -> forall fs, under E t = TStruct fs -> fs = []
  | ONoHTMLEscaping =>
    (t = TRawMessage -> v = VNil) /\ (native t = false -> ~ first_method H t ca MJson) /\
    (DocSpec.plain H t ca -> forall n fs f, structFields H n t = Some fs -> In f fs -> name_indifferent (f_name f))
  | ONoStringEscaping | ONoUTF8Coercion => True
  end.

Lemma segments_bytes s us r : segments s us -> In (inl r) us -> r < 0x80 -> In r s.
Proof.
  induction 1 as [|r' s us Hs _ IH|b s us _ _ IH]; intros Hi L; [destruct Hi| |].
  - apply in_or_app. destruct Hi as [Hi|Hi]; [|right; apply IH; assumption]. injection Hi as ->. left. rewrite utf8_ascii by (unfold scalar in Hs; lia). left. reflexivity.
  - right. destruct Hi as [Hi|Hi]; [discriminate | apply IH; assumption].
Qed.

Lemma segments_scalar s us r : segments s us -> In (inl r) us -> scalar r.
Proof.
  induction 1 as [|r' s us Hs _ IH|b s us _ _ IH]; intros Hi; [destruct Hi| |]; (destruct Hi as [Hi|Hi]; [|apply IH, Hi]); [injection Hi as <-; exact Hs | discriminate].
Qed.

Lemma flat_map_same {A B} (f g : A -> list B) l : (forall x, In x l -> f x = g x) -> flat_map f l = flat_map g l.
Proof. induction l as [|a l IH]; intros G; [reflexivity|]. cbn [flat_map]. rewrite (G a (or_introl eq_refl)), IH; [reflexivity|]. intros x Hx. apply G. right. exact Hx. Qed.

Lemma flat_map_utf8 s rs : utf8_string s rs -> s = flat_map utf8 rs.
Proof. induction 1 as [|r s rs _ _ IH]; [reflexivity|]. cbn [flat_map]. rewrite <- IH. reflexivity. Qed.

(** Escaping a text an option is indifferent to. *)
Lemma escape_no_html nc ne s us : segments s us -> Forall (fun c => c <> 38 /\ c <> 60 /\ c <> 62) s -> flat_map (esc_seg nc ne) us = flat_map (esc_seg nc true) us.
Proof.
  intros Hs F. apply flat_map_same. intros [r|b] Hi; [|reflexivity]. cbn [esc_seg]. destruct (r <? 0x80) eqn:L; [|reflexivity].
  assert (Hr := segments_bytes s us r Hs Hi ltac:(lia)). rewrite Forall_forall in F. apply F in Hr. unfold EscapeModel.plain.
  destruct ne; [reflexivity|]. replace (negb (r =? 60) && negb (r =? 62) && negb (r =? 38)) with true by lia. reflexivity.
Qed.
Lemma escape_valid nc ne s rs : utf8_string s rs -> Forall (fun r => r <> 0x2028 /\ r <> 0x2029) rs -> flat_map (esc_seg nc ne) (map inl rs) = flat_map (esc_seg true ne) (map inl rs).
Proof.
  intros _ F. apply flat_map_same. intros u Hi. apply in_map_iff in Hi. destruct Hi as (r & <- & Hr). rewrite Forall_forall in F. apply F in Hr. cbn [esc_seg].
  destruct (r <? 0x80); [reflexivity|]. destruct nc; [reflexivity|]. replace ((r =? 0x2028) || (r =? 0x2029)) with false by lia. reflexivity.
Qed.
Lemma escape_plain nc ne s rs : utf8_string s rs ->
  Forall (fun r => 0x20 <= r /\ r <> 34 /\ r <> 92 /\ r <> 38 /\ r <> 60 /\ r <> 62 /\ r <> 0x2028 /\ r <> 0x2029) rs -> flat_map (esc_seg nc ne) (map inl rs) = s.
Proof.
  intros Hu F. rewrite (flat_map_utf8 s rs Hu) at 1. clear Hu. induction F as [|r rs Hr _ IH]; [reflexivity|]. cbn [map flat_map]. rewrite IH. f_equal. cbn [esc_seg].
  destruct (r <? 0x80) eqn:L.
  - unfold EscapeModel.plain. replace ((32 <=? r) && negb (r =? 92) && negb (r =? 34) && (ne || negb (r =? 60) && negb (r =? 62) && negb (r =? 38))) with true by (destruct ne; cbn [orb]; lia).
    symmetry. apply utf8_ascii. lia.
  - destruct nc; [reflexivity|]. replace ((r =? 0x2028) || (r =? 0x2029)) with false by lia. reflexivity.
Qed.

Lemma name_same s : name_indifferent s -> html_escape s = s.
Proof.
  intros (rs & U & F). induction U as [|r s rs Hs _ IH]; [reflexivity|]. inversion F as [|? ? (N1 & N2 & N3 & N4 & N5) F']; subst. specialize (IH F').
  destruct (Z_lt_le_dec r 0x80) as [L|L].
  - assert (Q := utf8_ascii r ltac:(unfold scalar in Hs; lia)). rewrite Q. cbn [app]. rewrite html_escape_cons. replace (is_html r) with false by (unfold is_html; lia).
    replace (sep3 (r :: s)) with false by (unfold sep3; destruct s as [|x [|y z]]; try reflexivity; lia). rewrite IH. reflexivity.
  - destruct (utf8_head r Hs) as (b & t & Q & Hb & Ht). assert (Hnh : is_html b = false) by (pose proof (utf8_high r Hs L) as G; rewrite Q in G; inversion G; subst; unfold is_html; lia).
    destruct (utf8_sep r Hs s) as [Hsep|(b' & E' & _)]; [|exfalso; pose proof (utf8_high r Hs L) as G; rewrite E' in G; inversion G; subst; unfold utf8 in E'; destruct (r <? 0x80) eqn:?; [lia|]; destruct (r <? 0x800); [discriminate|]; destruct (r <? 0x10000); discriminate].
    replace ((r =? 0x2028) || (r =? 0x2029)) with false in Hsep by lia.
    rewrite Q in *. cbn [app] in *. rewrite html_escape_cons, Hnh, Hsep. rewrite html_escape_copy by (eapply Forall_impl; [|exact Ht]; cbn; intros; lia). rewrite IH. reflexivity.
Qed.

(** ** The configurations with and without an option *)
Section Added.
  Variables (x : option_) (l1 l2 : list (option option_)).
  Notation o := (config (l1 ++ l2)).
  Notation o' := (config (l1 ++ Some x :: l2)).

  Lemma flag_added y f : In (y, f) flag_options -> x = y \/ has (o_flags o) f = has (o_flags o') f.
  Proof.
    intros Hi. destruct (has (o_flags o) f) eqn:A, (has (o_flags o') f) eqn:B; auto.
    - apply (C16_flags _ y f Hi) in A. exfalso. assert (N : In (Some y) (l1 ++ Some x :: l2)) by (apply in_app_iff in A; apply in_or_app; destruct A; [left | right; right]; assumption).
      apply (C16_flags _ y f Hi) in N. congruence.
    - apply (C16_flags _ y f Hi) in B. apply in_app_iff in B. destruct B as [B|[B|B]]; [|left; congruence|];
        exfalso; assert (N : In (Some y) (l1 ++ l2)) by (apply in_or_app; auto); apply (C16_flags _ y f Hi) in N; congruence.
  Qed.

  Lemma setting_added {A} (g : encOpts -> A) : (forall a b y, g a = g b -> g (apply1 a y) = g (apply1 b y)) -> (forall a, g (apply1 a x) = g a) -> g o = g o'.
  Proof.
    intros S K. unfold config. rewrite !apply_app. cbn [apply].
    assert (G : forall l a b, g a = g b -> g (apply a l) = g (apply b l)) by (induction l as [|[y|] l IH]; intros a b Hab; cbn [apply]; [exact Hab | apply IH, S, Hab | apply IH, Hab]).
    apply G. symmetry. apply K.
  Qed.
End Added.

Section Theorem16.
  Variable H : host.
  Variable vcall : mkind -> typ -> val -> option Z -> bytes + Z.
  Hypothesis OK : host_ok H vcall.
  Variables (x : option_) (l1 l2 : list (option option_)).
  Notation o := (config (l1 ++ l2)).
  Notation o' := (config (l1 ++ Some x :: l2)).
  Notation E := (h_env H).
  Variable m : mem.

  Lemma text_ok y s : held H m y -> text_in H o y s -> bytes_ok s.
  Proof.
    intros Hh Hi. destruct Hi as [t ca q s P U|t ca q e vs b P U B V F|t ca q n e vs b P U B V F|t ca q kt et es s x0 P U S I|ca q es kt s x0 S I]; destruct Hh as [_ [l Hr]].
    - exact (proj2 (proj2 (inv_str _ _ _ _ _ Hr))).
    - eapply vbytes_ok; eauto. eapply byte_elem_under; eauto.
    - eapply vbytes_arr_ok; eauto. eapply byte_elem_under; eauto.
    - destruct (inv_map _ _ _ _ _ Hr) as (k & e & a & addrs & Q1 & Q2 & Q3 & Q4 & Q5 & Q6). destruct (In_nth_error _ _ I) as [j Hj]. destruct (nth_error addrs j) as [[ka va]|] eqn:Ej.
      2:{ apply nth_error_None in Ej. assert (j < length es)%nat by (apply nth_error_Some; congruence). lia. }
      destruct (Q6 _ _ _ _ _ Ej Hj) as [W1 W2]. exact (proj2 (proj2 (inv_str _ _ _ _ _ W1))).
    - destruct (inv_sync H m _ _ _ Hr) as (_ & efs & Q1 & Q2 & Q3). destruct (In_nth_error _ _ I) as [j Hj]. destruct (nth_error efs j) as [[ka va]|] eqn:Ej.
      2:{ apply nth_error_None in Ej. assert (j < length es)%nat by (apply nth_error_Some; congruence). lia. }
      destruct (Q3 _ _ _ _ _ Ej Hj) as [W1 W2]. destruct (any_held H vcall OK m _ _ _ false false W1) as [_ [l' Hl']]. exact (proj2 (proj2 (inv_str _ _ _ _ _ Hl'))).
  Qed.

  Lemma text_added s : bytes_ok s -> text_indifferent x s -> same_text o o' s.
  Proof.
    intros Hb Hi dst. rewrite !appendEscapedBytes_app by exact Hb. f_equal. destruct (segments_total s Hb) as [us Hs].
    assert (K : forall p, has (o_flags p) noStringEscaping = true -> escaped p s = s) by (intros p Hp; unfold escaped, appendEscapedBytes, appendEscapedBytes_opt; rewrite Hp; reflexivity).
    destruct (flag_added x l1 l2 ONoStringEscaping noStringEscaping ltac:(cbn; tauto)) as [-> |A].
    - destruct Hi as (rs & U & F). assert (S := valid_utf8_segments s rs U).
      assert (G : forall p, escaped p s = s) by (intros p; destruct (has (o_flags p) noStringEscaping) eqn:Q; [apply K, Q | rewrite (escaped_segments p s _ Hb S Q); apply escape_plain; assumption]).
      rewrite !G. reflexivity.
    - destruct (has (o_flags o) noStringEscaping) eqn:Q; [rewrite (K o Q), (K o'); congruence|]. symmetry in A. 
      destruct (flag_added x l1 l2 ONoUTF8Coercion noUTF8Coercion ltac:(cbn; tauto)) as [Hx|B].
      + rewrite Hx in Hi. destruct Hi as (rs & U & F). assert (S := valid_utf8_segments s rs U). rewrite (escaped_segments o s _ Hb S Q), (escaped_segments o' s _ Hb S A).
        rewrite (escape_valid _ _ s rs U F). rewrite (escape_valid (has (o_flags o') _) _ s rs U F).
        destruct (flag_added x l1 l2 ONoHTMLEscaping noHTMLEscaping ltac:(cbn; tauto)) as [C|C]; [congruence | rewrite C; reflexivity].
      + rewrite (escaped_segments o s _ Hb Hs Q), (escaped_segments o' s _ Hb Hs A), <- B.
        destruct (flag_added x l1 l2 ONoHTMLEscaping noHTMLEscaping ltac:(cbn; tauto)) as [Hx|C]; [|rewrite C; reflexivity].
        rewrite Hx in Hi. rewrite (escape_no_html _ _ s us Hs Hi). rewrite (escape_no_html _ (has (o_flags o') _) s us Hs Hi). reflexivity.
  Qed.

  Lemma ctx_added : (exists c, x = OWithContext c) \/ o_ctx o = o_ctx o'.
  Proof. destruct x eqn:Ex; try (left; eexists; reflexivity); right; apply setting_added; try (intros a b [] Q; cbn; auto); reflexivity. Qed.
  Lemma layout_added : (exists c, x = OTimeLayout c) \/ o_timeLayout o = o_timeLayout o'.
  Proof. destruct x eqn:Ex; try (left; eexists; reflexivity); right; apply setting_added; try (intros a b [] Q; cbn; auto); reflexivity. Qed.
  Lemma duration_added : (exists c, x = ODurationFormat c) \/ o_durationFmt o = o_durationFmt o'.
  Proof. destruct x eqn:Ex; try (left; eexists; reflexivity); right; apply setting_added; try (intros a b [] Q; cbn; auto); reflexivity. Qed.
  Lemma allow_added : (exists c, x = OAllowList c) \/ o_allow o = o_allow o'.
  Proof. destruct x eqn:Ex; try (left; eexists; reflexivity); right; apply setting_added; try (intros a b [] Q; cbn; auto); reflexivity. Qed.
  Lemma deny_added : (exists c, x = ODenyList c) \/ o_deny o = o_deny o'.
  Proof. destruct x eqn:Ex; try (left; eexists; reflexivity); right; apply setting_added; try (intros a b [] Q; cbn; auto); reflexivity. Qed.

  Lemma node_added y : held H m y -> indifferent H o x y -> same_for H o o' y.
  Proof.
    intros Hh Hi. destruct y as [[[t ca] q] v]. destruct Hi as [Ti Hi]. unfold same_for.
    split; [intros s Hs; apply text_added; [eapply text_ok; eauto | apply Ti, Hs]|]. clear Ti.
    assert (J : native t = false -> forall hp, method_of H t ca = Some (MJson, hp) -> has (o_flags o) noCompact = has (o_flags o') noCompact /\ has (o_flags o) noHTMLEscaping = has (o_flags o') noHTMLEscaping).
    { intros N hp Hm. apply method_first in Hm. destruct Hm as [Hm _]. destruct (flag_added x l1 l2 ONoCompact noCompact ltac:(cbn; tauto)) as [Hx|F]; [rewrite Hx in Hi; exfalso; apply (proj2 Hi N Hm)|].
      destruct (flag_added x l1 l2 ONoHTMLEscaping noHTMLEscaping ltac:(cbn; tauto)) as [Hx|G]; [rewrite Hx in Hi; exfalso; apply (proj1 (proj2 Hi) N Hm) | auto]. }
    split; [intros ->|split; [intros ->|split; [intros -> s ->|split; [intros ->|split; [intros -> es ->|split; [intros N hp Hm|split; [exact J|intros P]]]]]]].
    - destruct (flag_added x l1 l2 OUnixTime unixTime ltac:(cbn; tauto)) as [Hx|F]; [rewrite Hx in Hi; contradiction|]. destruct layout_added as [[c Hx]|G]; [rewrite Hx in Hi; contradiction | auto].
    - destruct duration_added as [[c Hx]|G]; [rewrite Hx in Hi; contradiction | exact G].
    - destruct (flag_added x l1 l2 ONoNumberValidation noNumberValidation ltac:(cbn; tauto)) as [Hx|F]; [rewrite Hx in Hi; right; apply Hi; reflexivity | left; exact F].
    - destruct (flag_added x l1 l2 ONoCompact noCompact ltac:(cbn; tauto)) as [Hx|F]; [rewrite Hx in Hi; left; apply Hi; reflexivity|].
      destruct (flag_added x l1 l2 ONoHTMLEscaping noHTMLEscaping ltac:(cbn; tauto)) as [Hx|G]; [rewrite Hx in Hi; left; apply Hi; reflexivity | auto].
    - destruct (flag_added x l1 l2 OUnsortedMap unsortedMap ltac:(cbn; tauto)) as [Hx|F]; [rewrite Hx in Hi; left; apply Hi; reflexivity | right; exact F].
    - apply method_first in Hm. destruct Hm as [Hm _]. destruct ctx_added as [[c Hx]|G]; [rewrite Hx in Hi; exfalso; apply (Hi N Hm) | exact G].
    - destruct (under E t) eqn:U in |- *; try exact I.
      + destruct (byte_elem H t0) eqn:B.
        * destruct (flag_added x l1 l2 ORawByteSlice rawByteSlice ltac:(cbn; tauto)) as [Hx|F]; [|auto]. rewrite Hx in Hi. left. split; [apply (Hi P t0 U B) | reflexivity].
        * destruct (flag_added x l1 l2 ONilSliceEmpty nilSliceEmpty ltac:(cbn; tauto)) as [Hx|F]; [|auto]. rewrite Hx in Hi. right. left. split; [apply (Hi P t0 U B) | reflexivity].
      + intros B. destruct (flag_added x l1 l2 OByteArrayAsString byteArrayAsString ltac:(cbn; tauto)) as [Hx|F]; [|exact F]. rewrite Hx in Hi. specialize (Hi P _ _ U). congruence.
      + split.
        * intros ->. destruct (flag_added x l1 l2 ONilMapEmpty nilMapEmpty ltac:(cbn; tauto)) as [Hx|F]; [|exact F]. rewrite Hx in Hi. exfalso. eapply Hi; eauto.
        * intros es ->. destruct (flag_added x l1 l2 OUnsortedMap unsortedMap ltac:(cbn; tauto)) as [Hx|F]; [|auto]. rewrite Hx in Hi. left. apply (proj1 Hi P es eq_refl).
      + destruct allow_added as [[c Hx]|A]; [rewrite Hx in Hi; left; unfold fields_of; rewrite U; apply (Hi P _ U)|].
        destruct deny_added as [[c Hx]|D]; [rewrite Hx in Hi; left; unfold fields_of; rewrite U; apply (Hi P _ U)|]. right. intros n fs' Hf. apply Forall_forall. intros f If.
        split; [unfold isDeniedField; rewrite A, D; reflexivity|]. unfold ValueModel.key_text.
        destruct (flag_added x l1 l2 ONoHTMLEscaping noHTMLEscaping ltac:(cbn; tauto)) as [Hx|F]; [|rewrite F; reflexivity]. rewrite Hx in Hi.
        destruct Hi as (_ & _ & Hi). specialize (Hi P n fs' f Hf If). apply name_same in Hi.
        assert (K : key_esc (f_name f) = key_raw (f_name f)) by (unfold key_esc, key_raw; rewrite Hi; reflexivity). rewrite K. destruct (has (o_flags o) noHTMLEscaping), (has (o_flags o') noHTMLEscaping); reflexivity.
  Qed.
End Theorem16.

(** Adding an option to an accepted list changes the result of no call on a
    value all of whose parts the option is indifferent to: not the bytes, not the
    errors.  The position of the option in the list does not matter. *)
Theorem C16_frame H vcall m t w v l1 l2 x o : host_ok H vcall -> sort_ok H -> call H m t w v (l1 ++ l2) o -> ~ unacceptable (l1 ++ Some x :: l2) ->
  (forall y, part H o (t, is_ptr H t, false, v) y -> indifferent H o x y) ->
  forall r, marshal_returns H m (Some (t, w)) (l1 ++ Some x :: l2) r <-> marshal_returns H m (Some (t, w)) (l1 ++ l2) r.
Proof.
  intros OK SO C Hu A r. assert (Ho : call_opts (l1 ++ Some x :: l2) = Some (config (l1 ++ Some x :: l2))).
  { rewrite unacceptable_none in Hu. rewrite call_opts_config in Hu |- *. destruct (validate _); [tauto | reflexivity]. }
  assert (o = config (l1 ++ l2)) as ->.
  { assert (X := c_opts _ _ _ _ _ _ _ C). rewrite call_opts_config in X. destruct (validate _); [discriminate|]. injection X as <-. reflexivity. }
  destruct (call_returns H vcall OK m t w v _ _ C) as (out & err & En & R). rewrite R.
  apply (marshal_iff H vcall OK m t w v _ (config (l1 ++ Some x :: l2)) out err r); [apply C | exact Ho|].
  destruct (encodes_inv _ _ _ _ _ _ _ En) as [n Hn]. eapply (encodes_venc H vcall OK _ t v out err n); [eapply holds_tok; apply C | apply C|].
  rewrite <- Hn. symmetry. apply venc_frame; [exact SO|]. intros y Hy. eapply (node_added H vcall OK x l1 l2 m); [|apply A, Hy].
  eapply part_held; [exact OK | eapply call_held; [exact OK | exact C] | exact Hy].
Qed.

(** []interface{}{[]byte(nil), "x<y", []int{}}: RawByteSlice, NilSliceEmpty and
    UTF-8 options are indifferent to it; NoHTMLEscaping is not. *)
Definition fr_t : typ := TSlice (TIface None).
Definition fr_v : val := VSlice [VIface (TSlice (TInt KUint8)) VNil; VIface TString (VStr (lit "x<y")); VIface (TSlice (TInt KInt)) (VSlice [])].
Lemma fr_call opts o : call_opts opts = Some o -> callb (plainH []) 10 fr_t fr_v o = true -> call (plainH []) (mem_of (plainH []) fr_t fr_v) fr_t (word_of (plainH []) fr_t fr_v) fr_v opts o.
Proof. apply plain_call. Qed.
Lemma fr_parts o y : part (plainH []) o (fr_t, is_ptr (plainH []) fr_t, false, fr_v) y ->
  In y [(fr_t, false, false, fr_v); (TIface None, true, false, VIface (TSlice (TInt KUint8)) VNil); (TSlice (TInt KUint8), false, false, VNil);
        (TIface None, true, false, VIface TString (VStr (lit "x<y"))); (TString, false, false, VStr (lit "x<y"));
        (TIface None, true, false, VIface (TSlice (TInt KInt)) (VSlice [])); (TSlice (TInt KInt), false, false, VSlice [])].
Proof.
  intros Hp. inversion Hp as [|? y1 ? C1 P1]; subst; [left; reflexivity|]. inversion C1; subst; try discriminate.
  match goal with U : under _ _ = TSlice _ |- _ => injection U as <- end. match goal with I : In v _ |- _ => rename I into Hi end.
  inversion P1 as [|? y2 ? C2 P2]; subst; [destruct Hi as [<-|[<-|[<-|[]]]]; cbn [In]; tauto|].
  destruct Hi as [<-|[<-|[<-|[]]]]; inversion C2; subst; try discriminate; (inversion P2 as [|? y3 ? C3 P3]; subst; [cbn [In]; tauto|]); inversion C3; subst; try discriminate.
  match goal with I : In _ [] |- _ => destruct I end.
Qed.
Example C16_ex_frame : let m := mem_of (plainH []) fr_t fr_v in let w := word_of (plainH []) fr_t fr_v in
  marshal_returns (plainH []) m (Some (fr_t, w)) [Some ONoHTMLEscaping] (MOk (lit "[null,""x<y"",[]]")) /\
  (forall r, marshal_returns (plainH []) m (Some (fr_t, w)) [Some ONoHTMLEscaping; Some ORawByteSlice] r <-> marshal_returns (plainH []) m (Some (fr_t, w)) [Some ONoHTMLEscaping] r) /\
  (forall r, marshal_returns (plainH []) m (Some (fr_t, w)) [Some ONilSliceEmpty; Some ONoHTMLEscaping] r <-> marshal_returns (plainH []) m (Some (fr_t, w)) [Some ONoHTMLEscaping] r) /\
  (forall r, marshal_returns (plainH []) m (Some (fr_t, w)) [Some ONoUTF8Coercion; Some ONoHTMLEscaping] r <-> marshal_returns (plainH []) m (Some (fr_t, w)) [Some ONoHTMLEscaping] r) /\
  ~ (forall r, marshal_returns (plainH []) m (Some (fr_t, w)) [Some ONoHTMLEscaping] r <-> marshal_returns (plainH []) m (Some (fr_t, w)) [] r).
Proof.
  cbn zeta. set (o := config [Some ONoHTMLEscaping]).
  assert (C : call (plainH []) (mem_of (plainH []) fr_t fr_v) fr_t (word_of (plainH []) fr_t fr_v) fr_v [Some ONoHTMLEscaping] o) by (apply fr_call; reflexivity).
  assert (U : forall l, call_opts l <> None -> ~ unacceptable l) by (intros l Hl; rewrite unacceptable_none; exact Hl).
  assert (T : forall y s, part (plainH []) o (fr_t, is_ptr (plainH []) fr_t, false, fr_v) y -> text_in (plainH []) o y s -> s = lit "x<y").
  { intros y s Hy Hs. apply fr_parts in Hy. cbn [In] in Hy. destruct Hy as [<-|[<-|[<-|[<-|[<-|[<-|[<-|[]]]]]]]]; inversion Hs; subst; try discriminate; reflexivity. }
  split; [|split; [|split; [|split]]].
  - exists 30%nat. split; [vm_compute; reflexivity | discriminate].
  - apply (C16_frame (plainH []) plainV _ _ _ fr_v [Some ONoHTMLEscaping] [] ORawByteSlice o); [apply plainH_ok; reflexivity | apply constH_sort | exact C | apply U; discriminate|].
    intros y Hy. assert (Ty := fun s => T y s Hy). apply fr_parts in Hy. cbn [In] in Hy.
    destruct Hy as [<-|[<-|[<-|[<-|[<-|[<-|[<-|[]]]]]]]]; (split; [intros s Hs; exact I|]); intros P e Q1 Q2; try discriminate; try reflexivity; injection Q1 as <-; discriminate.
  - apply (C16_frame (plainH []) plainV _ _ _ fr_v [] [Some ONoHTMLEscaping] ONilSliceEmpty o); [apply plainH_ok; reflexivity | apply constH_sort | exact C | apply U; discriminate|].
    intros y Hy. apply fr_parts in Hy. cbn [In] in Hy.
    destruct Hy as [<-|[<-|[<-|[<-|[<-|[<-|[<-|[]]]]]]]]; (split; [intros s Hs; exact I|]); intros P e Q1 Q2; try discriminate. injection Q1 as <-. discriminate.
  - apply (C16_frame (plainH []) plainV _ _ _ fr_v [] [Some ONoHTMLEscaping] ONoUTF8Coercion o); [apply plainH_ok; reflexivity | apply constH_sort | exact C | apply U; discriminate|].
    intros [[[t ca] q] v] Hy. split; [|exact I]. intros s Hs. rewrite (T _ s Hy Hs). exists [120; 60; 121]. split; [change (utf8_string (utf8 120 ++ utf8 60 ++ utf8 121 ++ []) [120; 60; 121]); repeat (apply us_cons; [left; lia|]); apply us_nil | repeat (apply Forall_cons; [split; discriminate|]); apply Forall_nil].
  - intros F. assert (A : marshal_returns (plainH []) (mem_of (plainH []) fr_t fr_v) (Some (fr_t, word_of (plainH []) fr_t fr_v)) [Some ONoHTMLEscaping] (MOk (lit "[null,""x<y"",[]]"))).
    { exists 30%nat. split; [vm_compute; reflexivity | discriminate]. }
    apply F in A. assert (B : marshal_returns (plainH []) (mem_of (plainH []) fr_t fr_v) (Some (fr_t, word_of (plainH []) fr_t fr_v)) [] (MOk [91;110;117;108;108;44;34;120;92;117;48;48;51;99;121;34;44;91;93;93])).
    { exists 30%nat. split; [vm_compute; reflexivity | discriminate]. }
    assert (X := marshal_returns_det _ _ _ _ _ _ A B). discriminate.
Qed.

Print Assumptions C16_frame.
