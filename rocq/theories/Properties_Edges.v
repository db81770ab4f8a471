(** More exact conditions: separators, omitnil, nil byte slices. *)
From Verif Require Import Base Utf8 JsonSpec OptionsModel EscapeModel EscapeProof NumberProof JsonParse CompactModel CompactProof IntModel TypesModel TypesFacts TagsModel TagsProof CalendarSpec TimeModel TimeProof FloatModel FloatProof LeafModel LeafProof
  MemModel FieldsModel FieldsProof InstrModel ExecModel ValueModel ExecMono ExecLeaf ExecProof HostFacts VencFacts MarshalThm DocSpec EntriesFacts DocLeaf PartFacts DocProof SafeProof ApiFacts PartsThm ShapeThm CallFacts MethodsThm
  StrictParse IntProof ExampleHost ExampleVals ExampleConst ExampleRead Properties_Options Properties_Strings Properties_Numbers Properties_Members Properties_Maps Properties_Fields Properties_Time Properties_Api Properties_Marshalers.

(** ** C05: the separators *)
Lemma infix_low x p c t : x <> [] -> ~ In c x -> (infix x (p ++ c :: t) <-> infix x p \/ infix x t).
Proof.
  intros Hx Hc. split.
  - intros (u & v & E). apply app_eq_app in E. destruct E as (l & [[-> E]|[-> E]]).
    + destruct l as [|a l].
      * cbn [app] in E. destruct x as [|a x]; [congruence|]. injection E as <- _. destruct Hc. left. reflexivity.
      * apply app_eq_app in E. destruct E as (l' & [[E1 E2]|[E1 E2]]).
        -- destruct l' as [|d l']; [left; exists u, []; rewrite app_nil_r in *; congruence|]. cbn [app] in E2. injection E2 as <- _. destruct Hc. rewrite E1. apply in_or_app. right. left. reflexivity.
        -- left. exists u, l'. rewrite E1. reflexivity.
    + destruct l as [|a l]; cbn [app] in E.
      * destruct x as [|a x]; [congruence|]. injection E as <- _. destruct Hc. left. reflexivity.
      * injection E as <- ->. right. exists l, v. reflexivity.
  - intros [(u & v & ->)|(u & v & ->)]; [exists u, (v ++ c :: t); rewrite <- !app_assoc; reflexivity | exists (p ++ c :: u), v; rewrite <- app_assoc; reflexivity].
Qed.

Lemma infix_lows x p a t : x <> [] -> Forall (fun b => 128 <= b) x -> a <> [] -> Forall (fun b => b < 128) a -> (infix x (p ++ a ++ t) <-> infix x p \/ infix x t).
Proof.
  intros Hx Hh Ha Hl. assert (N : forall c, c < 128 -> ~ In c x) by (intros c Hc Hi; rewrite Forall_forall in Hh; apply Hh in Hi; lia).
  revert p Ha. induction Hl as [|c a Hc Hl IH]; intros p Ha; [congruence|]. cbn [app]. rewrite (infix_low x p c (a ++ t) Hx (N c Hc)).
  destruct a as [|d a]; [reflexivity|]. assert (I := IH [] ltac:(discriminate)). cbn [app] in I. rewrite I. assert (Z0 : ~ infix x []).
  { intros (u & v & E). destruct u; [|discriminate]. destruct x; [congruence | discriminate]. }
  tauto.
Qed.

Lemma esc_low ne r : 0 <= r < 128 -> esc_seg true ne (inl r) <> [] /\ Forall (fun b => b < 128) (esc_seg true ne (inl r)).
Proof.
  intros Hr. cbn [esc_seg]. replace (r <? 0x80) with true by lia.
  assert (A : forallb (fun r => forallb (fun ne => let l := if EscapeModel.plain ne (Z.of_nat r) then [Z.of_nat r] else esc_ascii (Z.of_nat r) in negb (length l =? 0)%nat && forallb (fun b => b <? 128) l) [true; false]) (seq 0 128) = true) by (vm_compute; reflexivity).
  rewrite forallb_forall in A. specialize (A (Z.to_nat r) ltac:(apply in_seq; lia)). rewrite Z2Nat.id in A by lia. rewrite forallb_forall in A. specialize (A ne ltac:(destruct ne; cbn; auto)). cbv zeta in A.
  apply andb_prop in A. destruct A as [A1 A2]. split; [destruct (EscapeModel.plain ne r); [discriminate | intros E; rewrite E in A1; discriminate]|]. apply Forall_forall. intros b Hb. rewrite forallb_forall in A2. specialize (A2 b Hb). lia.
Qed.

(** Bytes outside ASCII are found in the escaped text where they were. *)
Lemma escaped_infix ne x : x <> [] -> Forall (fun b => 128 <= b) x -> forall s us, segments s us -> forall p, (infix x (p ++ flat_map (esc_seg true ne) us) <-> infix x (p ++ s)).
Proof.
  intros Hx Hh s us Hs. induction Hs as [|r s us Hr Hs IH|b s us Hn Hs IH]; intros p; cbn [flat_map]; [reflexivity| |].
  - destruct (r <? 0x80) eqn:E.
    + assert (R : 0 <= r < 128) by (unfold scalar in Hr; lia). destruct (esc_low ne r R) as [A1 A2]. rewrite (infix_lows x p _ _ Hx Hh A1 A2).
      rewrite utf8_ascii by lia. rewrite (infix_lows x p [r] s Hx Hh); [|discriminate | repeat constructor; lia]. assert (I := IH []). cbn [app] in I. tauto.
    + cbn [esc_seg]. rewrite E. rewrite !app_assoc. apply IH.
  - cbn [esc_seg]. change (b :: s) with ([b] ++ s). rewrite !app_assoc. apply IH.
Qed.

Lemma utf8_high r : 0x80 <= r -> Forall (fun b => 128 <= b) (utf8 r) /\ utf8 r <> [].
Proof.
  intros Hr. unfold utf8. replace (r <? 0x80) with false by lia. destruct (r <? 0x800); [|destruct (r <? 0x10000)]; (split; [repeat constructor; lia | discriminate]).
Qed.

(** The separators are left raw exactly when NoUTF8Coercion is given and the
    string has them. *)
Theorem C05_exact : forall H vcall m t w s opts o r, host_ok H vcall -> string_type H t -> holds H m t w (VStr s) -> call_opts opts = Some o ->
  has (o_flags o) noStringEscaping = false -> r = 0x2028 \/ r = 0x2029 ->
  exists out, marshal_returns H m (Some (t, w)) opts (MOk out) /\ (infix (utf8 r) out <-> In (Some ONoUTF8Coercion) opts /\ infix (utf8 r) s).
Proof.
  intros H vcall m t w s opts o r OK Ht Hr Ho H1 Hs. assert (Hb := string_bytes H m t w s (proj1 Ht) Hr).
  assert (A := string_marshal H vcall m t w s opts o OK Ht Hr Ho). exists (encode_string [] s o). split; [exact A|].
  assert (F := C16_flags opts ONoUTF8Coercion noUTF8Coercion ltac:(cbn; tauto)). assert (Eo := call_config opts o Ho). rewrite <- Eo in F.
  destruct (has (o_flags o) noUTF8Coercion) eqn:E.
  - assert (I : In (Some ONoUTF8Coercion) opts) by (apply F; reflexivity). destruct (segments_total s Hb) as [us Hu].
    rewrite encode_string_body by exact Hb. rewrite (escaped_segments o s us Hb Hu H1), E. destruct (utf8_high r ltac:(lia)) as [U1 U2].
    assert (N : ~ In 34 (utf8 r)) by (intros X; rewrite Forall_forall in U1; apply U1 in X; lia).
    assert (Z0 : ~ infix (utf8 r) []) by (intros (u & v & X); destruct u; [|discriminate]; destruct (utf8 r); [congruence | discriminate]).
    assert (X := infix_low (utf8 r) [] 34 (flat_map (esc_seg true (has (o_flags o) noHTMLEscaping)) us ++ [34]) U2 N). cbn [app] in X.
    assert (Y := infix_low (utf8 r) (flat_map (esc_seg true (has (o_flags o) noHTMLEscaping)) us) 34 [] U2 N).
    assert (W := escaped_infix (has (o_flags o) noHTMLEscaping) (utf8 r) U2 U1 s us Hu []). cbn [app] in W. tauto.
  - destruct (C05_separators_partial H vcall m t w s opts o _ OK Ht Hr Ho H1 E A) as [B1 B2].
    split; [intros X; destruct Hs as [-> | ->]; contradiction | intros [X _]; apply F in X; discriminate].
Qed.

(** ** C40: nil slices *)
(** Every nil is as stated, except a nil slice of bytes with NilSliceEmpty. *)
Theorem C40_exact H vcall m t w v opts o out t' ca q : host_ok H vcall -> sort_ok H -> call H m t w v opts o -> marshal_returns H m (Some (t, w)) opts (MOk out) ->
  inner H o (t, is_ptr H t, false, v) (t', ca, q, VNil) -> DocSpec.plain H t' ca ->
  exists b, bytes_of H vcall o (t', ca, q, VNil) b /\ infix b out /\ (nil_text H opts t' b <-> ~ (In (Some ONilSliceEmpty) opts /\ exists e, under (h_env H) t' = TSlice e /\ byte_elem H e = true)).
Proof.
  intros OK SO C R Hi [Hn Hm]. destruct (call_inner H vcall OK m t w v opts o C out _ SO R Hi) as (b & Hb & Hf).
  exists b. split; [exact Hb|]. split; [exact Hf|]. split.
  - intros T (I & e & U & B). unfold nil_text in T. rewrite U in T. destruct T as [T _]. specialize (T I). subst b.
    destruct Hb as [n Hb]. destruct n as [|n]; [discriminate|]. cbn [venc] in Hb. rewrite Hn, Hm in Hb. unfold vkind in Hb. rewrite U, B in Hb. discriminate Hb.
  - intros N. assert (D : (forall e, under (h_env H) t' = TSlice e -> byte_elem H e = false) \/ exists e, under (h_env H) t' = TSlice e /\ byte_elem H e = true).
    { destruct (under (h_env H) t') eqn:U; try (left; intros ? [= <-]; reflexivity); try (left; discriminate).
      match goal with |- context [TSlice ?e] => destruct (byte_elem H e) eqn:B; [right; eauto | left; intros ? [= <-]; exact B] end. }
    destruct D as [D|(e & U & B)].
    + destruct (C40_nil_partial H vcall OK SO m t w v opts o out t' ca q C R Hi (conj Hn Hm) D) as (b' & Hb' & _ & T). rewrite (bytes_of_det H vcall _ _ _ _ Hb Hb'). exact T.
    + unfold nil_text. rewrite U. destruct Hb as [n Hb]. destruct n as [|n]; [discriminate|]. cbn [venc] in Hb. rewrite Hn, Hm in Hb. unfold vkind in Hb. rewrite U, B in Hb.
      cbn [vbytes] in Hb. injection Hb as <-. split; [intros I; destruct N; eauto | reflexivity].
Qed.

(** A nil json.RawMessage, and a nil pointer or interface on which a method would
    be called, is null under all options; the method is not called. *)
Theorem C40_always_null H vcall m t w v opts o out t' ca q : host_ok H vcall -> sort_ok H -> call H m t w v opts o -> marshal_returns H m (Some (t, w)) opts (MOk out) ->
  inner H o (t, is_ptr H t, false, v) (t', ca, q, VNil) ->
  (t' = TRawMessage \/ native t' = false /\ (exists k, method_of H t' ca = Some (k, false)) /\ ((exists e, under (h_env H) t' = TPtr e) \/ exists x, under (h_env H) t' = TIface x)) ->
  (forall b, bytes_of H vcall o (t', ca, q, VNil) b <-> b = lit "null") /\ infix (lit "null") out.
Proof.
  intros OK SO C R Hi Hk. destruct (call_inner H vcall OK m t w v opts o C out _ SO R Hi) as (b & Hb & Hf).
  assert (E : b = lit "null").
  { destruct Hb as [n Hb]. destruct n as [|n]; [discriminate|]. cbn [venc] in Hb. destruct Hk as [->|(Hn & (k & Hm) & Hu)].
    - cbn [native vnative] in Hb. injection Hb as <-. reflexivity.
    - rewrite Hn, Hm in Hb. unfold vmarshaler in Hb. destruct Hu as [(e & U)|(x & U)]; rewrite U in Hb; injection Hb as <-; reflexivity. }
  subst b. split; [|exact Hf]. intros b. split; [intros Hb'; exact (bytes_of_det H vcall _ _ _ _ Hb' Hb) | intros ->; exact Hb].
Qed.

(** ** C21: omitnil *)
Lemma comma_first lax j s : ~ json_text lax j (123 :: 44 :: s).
Proof.
  assert (W : forall w c r, ws w -> (44 :: s = w ++ c :: r) -> ws_char c = false -> c = 44).
  { intros w c r Hw E Hc. destruct w as [|a w]; cbn [app] in E; [injection E as <- _; reflexivity|]. injection E as <- _. inversion Hw as [|? ? Hx _]; discriminate Hx. }
  intros (w1 & t & w2 & E & Hw1 & _ & J).
  destruct w1 as [|a w1]; [|cbn [app] in E; injection E as <- _; inversion Hw1 as [|? ? Hx _]; discriminate Hx]. cbn [app] in E.
  destruct J as [| | |l Hl|us x Hj|w Hw|vs x Hj|w Hw|ms x Hj]; try discriminate E.
  - destruct (jnumber_head l Hl) as (c & r & -> & Hc). cbn [app] in E. injection E as <- _. unfold digit in Hc. lia.
  - cbn [app] in E. injection E as E. rewrite <- app_assoc in E. cbn [app] in E. discriminate (W w 125 _ Hw E eq_refl).
  - cbn [app] in E. injection E as E. destruct Hj as [a k ks b c v y d Ha Hk Hb Hc Hv Hd|a k ks b c v y d ms' z Ha Hk Hb Hc Hv Hd Hm]; rewrite <- !app_assoc in E; cbn [app] in E; discriminate (W a 34 _ Ha E eq_refl).
Qed.

(** When the values kept are JSON, so is the object, exactly when the first
    field shown is kept or none is. *)
Theorem C21_exact H vcall m t w v opts o out st ca q fs0 vs : host_ok H vcall -> sort_ok H ->
  call H m t w v opts o -> marshal_returns H m (Some (t, w)) opts (MOk out) ->
  inner H o (t, is_ptr H t, false, v) (st, ca, q, VStruct vs) -> DocSpec.plain H st ca -> under (h_env H) st = TStruct fs0 ->
  exists k fs l, structFields H k st = Some fs /\ shown_bytes H vcall o st ca (VStruct vs) fs l /\ infix (object_text o l) out /\
    forall lax, Forall (fun fb => exists j, json no_ws lax j (snd fb)) (kept l) ->
      ((exists j, json_text lax j (object_text o l)) <-> kept l = [] \/ forall f l', l <> (f, None) :: l').
Proof.
  intros OK SO C R Hi P U. destruct (C21_omitnil_partial H vcall m t w v opts o out st ca q fs0 vs OK SO C R Hi P U) as (k & fs & l & S & Hs & Hx & _ & X).
  exists k, fs, l. split; [exact S|]. split; [exact Hs|]. split; [exact Hx|]. intros lax Hk. split.
  - intros [j J]. destruct l as [|[f [b|]] l]; [right; discriminate | right; congruence | left].
    cbn [object_text app kept flat_map] in J |- *. fold (kept l). destruct (kept l) as [|[f' b'] kl] eqn:Ek; [reflexivity|]. exfalso.
    assert (E : exists r, concat (map (tail_text o) l) = 44 :: r).
    { clear - Ek. induction l as [|[g [c|]] l IH]; [discriminate | |]; cbn [map concat tail_text kept flat_map app] in *; [eexists; reflexivity | apply IH; exact Ek]. }
    destruct E as [r E]. rewrite E in J. cbn [app] in J. exact (comma_first _ _ _ J).
  - intros [E|E].
    + destruct l as [|[f [b|]] l]; [|discriminate E|].
      * exists (JObj []). apply json_no_ws_text. apply (j_obj0 _ _ []). reflexivity.
      * exists (JObj []). cbn [object_text app]. replace (concat (map (tail_text o) l)) with (@nil Z); [apply json_no_ws_text; apply (j_obj0 _ _ []); reflexivity|].
        cbn [kept flat_map app] in E. fold (kept l) in E. clear - E. induction l as [|[g [c|]] l IH]; [reflexivity | discriminate E | apply IH; exact E].
    + destruct (X E lax Hk) as (ms & J & _). exists (JObj ms). apply json_no_ws_text. exact J.
Qed.

(** ** Examples *)
(** The same string with and without the option. *)
Example C05_exact_raw : exists out, marshal_returns exH (bytes_mem tricky) (Some (TString, 100)) [Some ONoUTF8Coercion] (MOk out) /\ infix (utf8 0x2028) out.
Proof.
  destruct (C05_exact exH ex_vcall _ TString 100 tricky [Some ONoUTF8Coercion] (config [Some ONoUTF8Coercion]) 0x2028 ex_ok string_type_ex (str_holds _ tricky_ok) eq_refl eq_refl (or_introl eq_refl)) as (out & A & B).
  exists out. split; [exact A|]. apply B. split; [left; reflexivity|]. exists (lit "a""<"), (utf8 0x1F600 ++ [0xE2; 0x80; 1] ++ lit "&\z"). reflexivity.
Qed.
Example C05_exact_escaped : exists out, marshal_returns exH (bytes_mem tricky) (Some (TString, 100)) [Some ONoHTMLEscaping] (MOk out) /\ ~ infix (utf8 0x2028) out.
Proof.
  destruct (C05_exact exH ex_vcall _ TString 100 tricky [Some ONoHTMLEscaping] (config [Some ONoHTMLEscaping]) 0x2028 ex_ok string_type_ex (str_holds _ tricky_ok) eq_refl eq_refl (or_introl eq_refl)) as (out & A & B).
  exists out. split; [exact A|]. intros X. apply B in X. destruct X as [[X|[]] _]. discriminate X.
Qed.

(** The nil slices of L: the slice of integers is as stated, that of bytes not. *)
Example C40_exact_ints : exists b, bytes_of mtH mtV (config l_opts) (TSlice (TInt KInt), false, false, VNil) b /\ nil_text mtH l_opts (TSlice (TInt KInt)) b.
Proof.
  destruct (C40_exact mtH mtV _ _ _ _ _ _ _ (TSlice (TInt KInt)) false false mt_ok mt_sort l_call l_out) as (b & A & _ & B).
  - apply (walk_ok mtH (config l_opts) 10 [1%nat]). vm_compute. reflexivity.
  - split; reflexivity.
  - exists b. split; [exact A|]. apply B. intros (_ & e & [= <-] & X). discriminate X.
Qed.
Example C40_exact_bytes : exists b, bytes_of mtH mtV (config l_opts) (TSlice (TInt KUint8), false, false, VNil) b /\ ~ nil_text mtH l_opts (TSlice (TInt KUint8)) b.
Proof.
  destruct (C40_exact mtH mtV _ _ _ _ _ _ _ (TSlice (TInt KUint8)) false false mt_ok mt_sort l_call l_out) as (b & A & _ & B).
  - apply (walk_ok mtH (config l_opts) 10 [2%nat]). vm_compute. reflexivity.
  - split; reflexivity.
  - exists b. split; [exact A|]. intros X. apply B in X. apply X. split; [left; reflexivity|]. exists (TInt KUint8). split; reflexivity.
Qed.

(** struct{R json.RawMessage; P *P} with both nil *)
Definition nr_t : typ := TStruct [fld "R" "" TRawMessage; fld "P" "" (TPtr (TNamed 4))].
Definition nr_v : val := VStruct [VNil; VNil].
Lemma nr_call : call mtH (mt_m nr_t nr_v) nr_t (mt_w nr_t nr_v) nr_v l_opts (config l_opts).
Proof. mt_call. Qed.
Example nr_out : marshal_returns mtH (mt_m nr_t nr_v) (Some (nr_t, mt_w nr_t nr_v)) l_opts (MOk (lit "{""R"":null,""P"":null}")).
Proof. mt_run. Qed.
Example C40_always_raw : forall b, bytes_of mtH mtV (config l_opts) (TRawMessage, false, false, VNil) b <-> b = lit "null".
Proof.
  refine (proj1 (C40_always_null mtH mtV _ _ _ _ _ _ _ TRawMessage false false mt_ok mt_sort nr_call nr_out _ (or_introl eq_refl))).
  apply (walk_ok mtH (config l_opts) 10 [0%nat]). vm_compute. reflexivity.
Qed.
Example C40_always_method : forall b, bytes_of mtH mtV (config l_opts) (TPtr (TNamed 4), false, false, VNil) b <-> b = lit "null".
Proof.
  refine (proj1 (C40_always_null mtH mtV _ _ _ _ _ _ _ (TPtr (TNamed 4)) false false mt_ok mt_sort nr_call nr_out _ (or_intror (conj eq_refl (conj (ex_intro _ MCtx eq_refl) (or_introl (ex_intro _ (TNamed 4) eq_refl))))))).
  apply (walk_ok mtH (config l_opts) 10 [1%nat]). vm_compute. reflexivity.
Qed.

(** The first member dropped and others kept; one dropped later. *)
Example C21_exact_first : exists k fs l, structFields omitH k (TNamed 1) = Some fs /\ shown_bytes omitH omitV default_opts (TNamed 1) false omit_v fs l /\
  forall f b l', l <> (f, Some b) :: l'.
Proof.
  destruct (C21_exact omitH omitV _ _ _ _ _ _ _ (TNamed 1) false false [fld "A" ",omitnil" (TNamed 0); fld "B" "" (TInt KInt); fld "C" ",omitnil" (TNamed 0)] [VStruct [VInt 0]; VInt 1; VStruct [VInt 0]]
    omit_ok (constH_sort _ _ _) omit_call1 omit_bad (inner_refl _ _ _) (conj eq_refl eq_refl) eq_refl) as (k & fs & l & S & Hs & (u & v & Hx) & _).
  exists k, fs, l. split; [exact S|]. split; [exact Hs|]. intros f b l' ->. cbn [object_text] in Hx. unfold key_text in Hx.
  destruct u as [|a u]; [discriminate Hx|]. injection Hx as _ Hx. assert (I : In 123 [44; 34; 66; 34; 58; 49; 125]) by (rewrite Hx; apply in_or_app; right; left; reflexivity).
  vm_compute in I. intuition discriminate.
Qed.
Example C21_exact_later : exists k fs l, structFields omitH k (TNamed 2) = Some fs /\ shown_bytes omitH omitV default_opts (TNamed 2) false omit_w fs l /\
  (Forall (fun fb => exists j, json no_ws true j (snd fb)) (kept l) -> (exists j, json_text true j (object_text default_opts l)) <-> kept l = [] \/ forall f l', l <> (f, None) :: l').
Proof.
  destruct (C21_exact omitH omitV _ _ _ _ _ _ _ (TNamed 2) false false [fld "B" "" (TInt KInt); fld "C" ",omitnil" (TNamed 0); fld "D" "D<&" TBool] [VInt 7; VStruct [VInt 0]; VBool true]
    omit_ok (constH_sort _ _ _) omit_call omit_good (inner_refl _ _ _) (conj eq_refl eq_refl) eq_refl) as (k & fs & l & S & Hs & _ & Hx).
  exists k, fs, l. split; [exact S|]. split; [exact Hs|]. apply Hx.
Qed.

Print Assumptions C05_exact.
Print Assumptions C40_exact.
Print Assumptions C40_always_null.
Print Assumptions C21_exact.
