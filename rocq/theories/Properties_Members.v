(** C19 (deep embedding), C21, C43 and examples for C18-C21, C42, C43. *)
From Coq Require Import Permutation Sorted.
From Verif Require Import Base Utf8 JsonSpec OptionsModel EscapeModel EscapeProof JsonParse CompactModel CompactProof IntModel IntProof TypesModel TypesFacts TagsModel TagsProof TimeModel FloatModel LeafModel LeafProof MemModel FieldsSpec FieldsModel
  FieldsSelect FieldsProof FieldsThm InstrModel ExecModel ValueModel ExecProof HostFacts VencFacts MarshalThm DocSpec EntriesFacts DocLeaf PartFacts DocProof SafeProof ApiFacts PartsThm ShapeThm CallFacts
  ExampleHost ExampleConst ExampleRead Properties_Options Properties_Numbers Properties_Fields.

(** Is a a piece of b? *)
Fixpoint prefixb (a b : bytes) : bool :=
  match a, b with [], _ => true | x :: a', y :: b' => (x =? y) && prefixb a' b' | _, [] => false end.
Fixpoint infixb (a b : bytes) : bool :=
  prefixb a b || match b with [] => false | _ :: b' => infixb a b' end.
Lemma prefixb_app a r : prefixb a (a ++ r) = true.
Proof. induction a as [|x a IH]; cbn; [reflexivity|]. rewrite Z.eqb_refl. exact IH. Qed.
Lemma infixb_complete a b : infix a b -> infixb a b = true.
Proof.
  intros (l & r & ->). induction l as [|x l IH].
  - cbn [app]. destruct (a ++ r) eqn:E; cbn [infixb]; rewrite <- E, prefixb_app; reflexivity.
  - cbn [app infixb]. rewrite IH. apply orb_true_r.
Qed.

(** ** C19, for all depths *)
(** The full statement for integers; [call] would ask for unshared paths, so the
    value is only required to be in memory. *)
Definition promoted_correct (H : host) : Prop :=
  forall m t w vs fs0 out k fs f ik n d u nm topts, holds H m t w (VStruct vs) -> marshal_returns H m (Some (t, w)) [] (MOk out) ->
    DocSpec.plain H t (is_ptr H t) -> under (h_env H) t = TStruct fs0 -> structFields H k t = Some fs -> In f fs -> declared H t f d u nm topts ->
    under (h_env H) u = TInt ik -> DocSpec.plain H u false -> f_quoted f = false -> f_omitEmpty f = false -> f_omitNil f = false ->
    leads (f_index f) (VStruct vs) (Some (VInt n)) -> exists l, int_lit l n /\ infix (key_text default_opts (f_name f) ++ l) out.

(** type A struct{ X int }; B struct{ Y int }; T3 struct{ A; B }; T2 struct{ T3 };
    T1 struct{ T2 }; T0 struct{ T1 } *)
Definition deepH : host := plainH
  [TStruct [fld "X" "" (TInt KInt)]; TStruct [fld "Y" "" (TInt KInt)]; TStruct [emb "A" (TNamed 0); emb "B" (TNamed 1)];
   TStruct [emb "T3" (TNamed 2)]; TStruct [emb "T2" (TNamed 3)]; TStruct [emb "T1" (TNamed 4)]].
Lemma deep_ok : host_ok deepH plainV. Proof. apply plainH_ok. vm_compute. reflexivity. Qed.
Definition deep_v : val := VStruct [VStruct [VStruct [VStruct [VStruct [VInt 1]; VStruct [VInt 2]]]]].


(** X is written with the value of Y: the offsets of A and B, embedded at the
    fifth level, share their storage. *)
Theorem C19_promoted_refuted : host_ok deepH plainV /\ ~ promoted_correct deepH.
Proof.
  split; [exact deep_ok|]. intros C.
  assert (Hh : holds deepH (mem_of deepH (TNamed 5) deep_v) (TNamed 5) (word_of deepH (TNamed 5) deep_v) deep_v) by (apply (holdsb_ok deepH declb declb_ok _ 10); vm_compute; reflexivity).
  assert (R : marshal_returns deepH (mem_of deepH (TNamed 5) deep_v) (Some (TNamed 5, word_of deepH (TNamed 5) deep_v)) [] (MOk (lit "{""X"":2,""Y"":2}"))) by (exists 12%nat; split; [vm_compute; reflexivity | discriminate]).
  destruct (structFields deepH 12 (TNamed 5)) as [fs|] eqn:S; [|vm_compute in S; discriminate]. assert (S' := S). vm_compute in S'.
  assert (T : tyok deepH (TNamed 5)) by exact I.
  destruct fs as [|f fs]; [discriminate|].
  destruct (C42_tags deepH plainV (TNamed 5) 12 (f :: fs) f deep_ok T S (or_introl eq_refl)) as (d & u & n & topts & D & Tu & _).
  injection S' as <- _. vm_compute in Tu. injection Tu as <-.
  destruct (C _ _ _ _ [emb "T1" (TNamed 4)] _ _ _ _ KInt 1 d (TInt KInt) n topts Hh R (conj eq_refl eq_refl) eq_refl S (or_introl eq_refl) D eq_refl (conj eq_refl eq_refl) eq_refl eq_refl eq_refl) as (l & Hl & Hx).
  - apply vget_leads; [discriminate | reflexivity].
  - assert (l = lit "1"). { destruct (append_int_spec [] 1) as (s & E & Hs). vm_compute in E. subst s. eapply C09_literal_unique; eauto. }
    subst l. apply infixb_complete in Hx. vm_compute in Hx. discriminate.
Qed.

(** When no step of the path of a field is written over, or the path has at most
    four elements, the offsets recorded for it are those of its path. *)
Theorem C19_offsets_partial H vcall t k fs f p i : host_ok H vcall -> tyok H t -> structFields H k t = Some fs -> In f fs -> f_index f = p ++ [i] ->
  unshared (h_env H) (h_off H) (h_letter H) (h_udigit H) t p \/ (length (f_index f) <= 4)%nat ->
  exists sq w fs', epath (h_env H) (h_off H) (h_letter H) (h_udigit H) t p sq w /\ struct_of (h_env H) w fs' /\ f_seq f = sq ++ [(h_off H fs' i, false)].
Proof.
  intros OK T S Hf Hi Hs. destruct (structFields_data H (ok_wf _ _ OK) t T k fs f S Hf) as (p' & sq & w & i' & v & opts & A1 & A2 & A3 & _ & _ & _ & A7).
  rewrite A1 in Hi. apply app_inj_tail in Hi. destruct Hi as (-> & ->). assert (Hs' : unshared (h_env H) (h_off H) (h_letter H) (h_udigit H) t p).
  { destruct Hs as [Hs|Hs]; [exact Hs|]. rewrite A1, app_length in Hs. cbn [length] in Hs. eapply steady_short; [exact A2 | lia]. }
  destruct A3 as (fs' & d & n & B1 & _). exists sq, w, fs'. split; [exact A2|]. split; [exact B1|]. rewrite (A7 Hs'), <- (struct_fields H w fs' B1). reflexivity.
Qed.

(** type A struct{ X int }; B struct{ Y int }; T4 struct{ A; B }; T3 struct{ T4 };
    T2 struct{ T3 }; T1 struct{ T2 }; T0 struct{ T1 }: one level deeper, the
    offsets of A and B are moved to separate arrays. *)
Definition deeperH : host := plainH
  [TStruct [fld "X" "" (TInt KInt)]; TStruct [fld "Y" "" (TInt KInt)]; TStruct [emb "A" (TNamed 0); emb "B" (TNamed 1)];
   TStruct [emb "T4" (TNamed 2)]; TStruct [emb "T3" (TNamed 3)]; TStruct [emb "T2" (TNamed 4)]; TStruct [emb "T1" (TNamed 5)]].
Lemma deeper_ok : host_ok deeperH plainV. Proof. apply plainH_ok. vm_compute. reflexivity. Qed.
Definition deeper_v : val := VStruct [VStruct [VStruct [VStruct [VStruct [VStruct [VInt 1]; VStruct [VInt 2]]]]]].
Lemma deeper_call : call deeperH (mem_of deeperH (TNamed 6) deeper_v) (TNamed 6) (word_of deeperH (TNamed 6) deeper_v) deeper_v [] default_opts.
Proof. apply (plain_call _ 10); vm_compute; reflexivity. Qed.
Definition deeper_fs : list field := match structFields deeperH 10 (TNamed 6) with Some fs => fs | None => [] end.
Lemma deeper_sf : structFields deeperH 10 (TNamed 6) = Some deeper_fs. Proof. vm_compute. reflexivity. Qed.
Example C19_ex_deep : exists l, int_lit l 1 /\ infix (key_text default_opts (lit "X") ++ l) (lit "{""X"":1,""Y"":2}").
Proof.
  assert (R : marshal_returns deeperH (mem_of deeperH (TNamed 6) deeper_v) (Some (TNamed 6, word_of deeperH (TNamed 6) deeper_v)) [] (MOk (lit "{""X"":1,""Y"":2}"))) by (exists 12%nat; split; [vm_compute; reflexivity | discriminate]).
  destruct deeper_fs as [|f fs] eqn:Ef; [vm_compute in Ef; discriminate|]. assert (S := deeper_sf). rewrite Ef in S.
  destruct (C42_tags deeperH plainV (TNamed 6) 10 (f :: fs) f deeper_ok I S (or_introl eq_refl)) as (d & u & n & topts & D & Tu & _). vm_compute in Ef. injection Ef as <- _. vm_compute in Tu. injection Tu as <-.
  apply (C19_integer_partial deeperH plainV _ _ _ _ [] default_opts _ (TNamed 6) false false [emb "T1" (TNamed 5)] _ 10 _ _ KInt 1 d (TInt KInt) n topts
    deeper_ok (constH_sort _ _ _) deeper_call R (inner_refl _ _ _) (conj eq_refl eq_refl) eq_refl S (or_introl eq_refl) D eq_refl (conj eq_refl eq_refl) eq_refl eq_refl eq_refl).
  - rewrite <- denied_concealed. intros [(x & C & _)|(x & C & _)]; vm_compute in C; discriminate.
  - apply vget_leads; [discriminate | reflexivity].
Qed.

(** ** C43: member names *)
Theorem C43_member_names H vcall m t w v opts o out st ca q fs0 vs : host_ok H vcall -> sort_ok H ->
  call H m t w v opts o -> marshal_returns H m (Some (t, w)) opts (MOk out) ->
  inner H o (t, is_ptr H t, false, v) (st, ca, q, VStruct vs) -> DocSpec.plain H st ca -> under (h_env H) st = TStruct fs0 ->
  exists k fs l, structFields H k st = Some fs /\ shown_bytes H vcall o st ca (VStruct vs) fs l /\ infix (object_text o l) out /\
    forall f b, In (f, Some b) l -> exists body us, infix (34 :: body ++ 34 :: 58 :: b) out /\ jchars false us body /\ string_units (f_name f) us /\
      (has (o_flags o) noHTMLEscaping = false -> clean true body) /\ (has (o_flags o) noHTMLEscaping = true -> body = f_name f).
Proof.
  intros OK SO C R Hi P U. destruct (struct_written H vcall m t w v opts o out st ca q fs0 vs OK SO C R Hi P U) as (T & k & fs & l & S & Hs & Hx).
  exists k, fs, l. split; [exact S|]. split; [exact Hs|]. split; [exact Hx|]. intros f b Hl. destruct (shown_bytes_in H vcall o _ _ _ _ _ Hs _ _ Hl) as (Hf & _).
  destruct (field_name_key H vcall OK k st fs f T S Hf) as (rs & Hn & Hu & Hr).
  assert (X : infix (key_text o (f_name f) ++ b) out) by (eapply infix_trans; [apply (object_infix o l f b Hl) | exact Hx]).
  assert (SU := string_units_valid _ _ Hu). unfold key_text in X. destruct (has (o_flags o) noHTMLEscaping) eqn:Eh.
  - exists (f_name f), (flat_map utf16 rs). unfold key_raw in X. cbn [app] in X. rewrite <- !app_assoc in X. cbn [app] in X. split; [exact X|]. split; [apply key_raw_jchars; assumption|]. split; [exact SU|].
    split; [discriminate | reflexivity].
  - destruct (key_esc_jchars _ _ Hu Hr) as [K1 K2]. exists (html_escape (f_name f)), (flat_map utf16 rs). unfold key_esc in X. cbn [app] in X. rewrite <- !app_assoc in X. cbn [app] in X.
    split; [exact X|]. split; [exact K1|]. split; [exact SU|]. split; [intros _; exact K2 | discriminate].
Qed.

(** ** C21: omitnil and marshalers *)
(** Unless the first field shown is dropped, the object is well formed as soon
    as the values kept are: its members are those of the fields kept, in order,
    and the fields dropped are those tagged omitnil whose type is a
    json.Marshaler and whose value is null. *)
Theorem C21_omitnil_partial H vcall m t w v opts o out st ca q fs0 vs : host_ok H vcall -> sort_ok H ->
  call H m t w v opts o -> marshal_returns H m (Some (t, w)) opts (MOk out) ->
  inner H o (t, is_ptr H t, false, v) (st, ca, q, VStruct vs) -> DocSpec.plain H st ca -> under (h_env H) st = TStruct fs0 ->
  exists k fs l, structFields H k st = Some fs /\ shown_bytes H vcall o st ca (VStruct vs) fs l /\ infix (object_text o l) out /\
    (forall f b, In (f, b) l -> exists u x b', type_by_index H st (f_index f) = Some u /\ leads (f_index f) (VStruct vs) (Some x) /\ bytes_of H vcall o (u, ca, quoted H f u, x) b' /\
       forall lax j, json no_ws lax j b' -> (b = None <-> tag_item H st f (lit "omitnil") /\ (h_impl H u MJson = true \/ h_impl H (TPtr u) MJson = true) /\ j = JNull)) /\
    ((forall f l', l <> (f, None) :: l') -> forall lax, Forall (fun fb => exists j, json no_ws lax j (snd fb)) (kept l) ->
       exists ms, json no_ws lax (JObj ms) (object_text o l) /\ Forall2 (fun fb mj => string_units (f_name (fst fb)) (fst mj) /\ json no_ws lax (snd mj) (snd fb)) (kept l) ms).
Proof.
  intros OK SO C R Hi P U. destruct (struct_written H vcall m t w v opts o out st ca q fs0 vs OK SO C R Hi P U) as (T & k & fs & l & S & Hs & Hx).
  exists k, fs, l. split; [exact S|]. split; [exact Hs|]. split; [exact Hx|]. split.
  - intros f b Hl. destruct (shown_bytes_in H vcall o _ _ _ _ _ Hs _ _ Hl) as (Hf & u & x & b' & (A1 & (A2 & A3) & A4) & B & D). exists u, x, b'. split; [exact A3|].
    split; [apply vget_leads; [eapply field_index_nonempty; eauto | exact A2]|]. split; [exact B|]. intros lax j Hj. destruct (flag_item H vcall st k fs f OK T S Hf) as [_ O2]. rewrite <- O2.
    assert (Nn := tail_null_json _ _ _ _ Hj). rewrite tail_null_spec in Nn. rewrite <- Nn. unfold drops_null in D. destruct D as [[-> D]|(-> & D)]; [split; [discriminate | tauto] | tauto].
  - intros Hl lax Hk. rewrite (object_kept o l Hl).
    assert (Hf : Forall (fun fb => In (fst fb) fs) (kept l)).
    { apply Forall_forall. intros [f b] Hb. unfold kept in Hb. apply in_flat_map in Hb. destruct Hb as ([f' [b'|]] & Hb & Hc); [|destruct Hc]. destruct Hc as [[= -> ->]|[]].
      exact (proj1 (shown_bytes_in H vcall o _ _ _ _ _ Hs _ _ Hb)). }
    assert (G : exists ms kvs, map (field_text o) (kept l) = map member_text kvs /\ Forall2 (fun fb mj => string_units (f_name (fst fb)) (fst mj) /\ json no_ws lax (snd mj) (snd fb)) (kept l) ms /\
      Forall2 (fun mj kv => json no_ws lax (JStr (fst mj)) (fst kv) /\ json no_ws lax (snd mj) (snd kv)) ms kvs).
    { revert Hk Hf. generalize (kept l). induction l0 as [|[f b] l0 IH]; intros Hk Hf; [exists [], []; repeat split; constructor|].
      inversion Hk as [|? ? [j Hj] Hk']; inversion Hf as [|? ? Hf1 Hf']; subst. cbn [fst snd] in *. destruct (IH Hk' Hf') as (ms & kvs & G1 & G2 & G3).
      destruct (field_name_key H vcall OK k st fs f T S Hf1) as (rs & Hn). destruct (key_text_doc o lax _ _ Hn) as (kb & us & E1 & E2 & E3).
      exists ((us, j) :: ms), ((kb, b) :: kvs). split; [cbn [map]; rewrite G1; unfold field_text, member_text; cbn [fst snd]; rewrite E1, <- app_assoc; reflexivity|].
      split; constructor; cbn [fst snd]; auto. }
    destruct G as (ms & kvs & G1 & G2 & G3). exists ms. split; [|exact G2]. rewrite G1.
    assert (Ec : commas (map member_text kvs) = join_members kvs). { clear. induction kvs as [|kv kvs IH]; [reflexivity|]. cbn [map]. destruct kvs as [|kv' kvs]; [reflexivity|]. cbn [map commas join_members] in *. rewrite <- IH. reflexivity. }
    rewrite Ec. apply json_members. exact G3.
Qed.


(** Methods return JSON, yet the output is not. *)
Definition omitnil_correct (H : host) (vcall : mkind -> typ -> val -> option Z -> bytes + Z) : Prop :=
  (forall k td x ctx b, vcall k td x ctx = inl b -> exists j, cjson j b) ->
  forall m t w v opts o out fs0, call H m t w v opts o -> marshal_returns H m (Some (t, w)) opts (MOk out) ->
    DocSpec.plain H t (is_ptr H t) -> under (h_env H) t = TStruct fs0 -> exists j, json_text true j out.

(** type M struct{ A int }, with a method MarshalJSON that returns null;
    type T struct{ A M `json:",omitnil"`; B int; C M `json:",omitnil"` } *)
Definition is_m (t : typ) : bool := match t with TNamed 0 => true | _ => false end.
Definition omit_impl (t : typ) (k : mkind) : bool := match k with MJson => is_m t | _ => false end.
Definition null_result (k : mkind) (td : typ) (ctx : option Z) : bytes + Z := inl l_null.
Definition omitH : host := constH
  [TStruct [fld "A" "" (TInt KInt)]; TStruct [fld "A" ",omitnil" (TNamed 0); fld "B" "" (TInt KInt); fld "C" ",omitnil" (TNamed 0)];
   TStruct [fld "B" "" (TInt KInt); fld "C" ",omitnil" (TNamed 0); fld "D" "D<&" TBool]] omit_impl null_result.
Definition omitV := constV null_result.
Lemma omit_ok : host_ok omitH omitV.
Proof. apply constH_ok; [vm_compute; reflexivity|]. intros k td ctx b [= <-]. apply bytes_okb_ok. reflexivity. Qed.
Definition omit_v : val := VStruct [VStruct [VInt 0]; VInt 1; VStruct [VInt 0]].
Lemma omit_call1 : call omitH (mem_of omitH (TNamed 1) omit_v) (TNamed 1) (word_of omitH (TNamed 1) omit_v) omit_v [] default_opts.
Proof. apply (const_call _ omit_impl null_result 10); vm_compute; reflexivity. Qed.
Lemma omit_bad : marshal_returns omitH (mem_of omitH (TNamed 1) omit_v) (Some (TNamed 1, word_of omitH (TNamed 1) omit_v)) [] (MOk (lit "{,""B"":1}")).
Proof. (exists 12%nat; split; [vm_compute; reflexivity | discriminate]). Qed.

Theorem C21_omitnil_refuted : host_ok omitH omitV /\ sort_ok omitH /\ ~ omitnil_correct omitH omitV.
Proof.
  split; [exact omit_ok|]. split; [apply constH_sort|]. intros C.
  assert (A : forall k td x ctx b, omitV k td x ctx = inl b -> exists j, cjson j b) by (intros k td x ctx b [= <-]; exists JNull; constructor).
  destruct (C A _ _ _ omit_v [] default_opts _ [fld "A" ",omitnil" (TNamed 0); fld "B" "" (TInt KInt); fld "C" ",omitnil" (TNamed 0)] omit_call1 omit_bad (conj eq_refl eq_refl) eq_refl) as [j Hj].
  assert (V : json_valid (lit "{,""B"":1}") = true) by (apply json_valid_correct; [apply bytes_okb_ok; reflexivity | eauto]). vm_compute in V. discriminate.
Qed.

(** ** Examples *)
(** C21, C43: the dropped member comes after the first one. *)
Definition omit_w : val := VStruct [VInt 7; VStruct [VInt 0]; VBool true].
Lemma omit_call : call omitH (mem_of omitH (TNamed 2) omit_w) (TNamed 2) (word_of omitH (TNamed 2) omit_w) omit_w [] default_opts.
Proof. apply (const_call _ omit_impl null_result 10); vm_compute; reflexivity. Qed.
Definition bs (s : string) : bytes := map (fun c => if c =? 126 then 92 else c) (lit s).
Example omit_good : marshal_returns omitH (mem_of omitH (TNamed 2) omit_w) (Some (TNamed 2, word_of omitH (TNamed 2) omit_w)) [] (MOk (bs "{""B"":7,""D~u003c~u0026"":true}")).
Proof. exists 12%nat; split; [vm_compute; reflexivity | discriminate]. Qed.

Example C21_ex : exists k fs l, structFields omitH k (TNamed 2) = Some fs /\ shown_bytes omitH omitV default_opts (TNamed 2) false omit_w fs l /\
  infix (object_text default_opts l) (bs "{""B"":7,""D~u003c~u0026"":true}").
Proof.
  destruct (C21_omitnil_partial omitH omitV _ _ _ _ _ _ _ (TNamed 2) false false [fld "B" "" (TInt KInt); fld "C" ",omitnil" (TNamed 0); fld "D" "D<&" TBool] [VInt 7; VStruct [VInt 0]; VBool true]
    omit_ok (constH_sort _ _ _) omit_call omit_good (inner_refl _ _ _) (conj eq_refl eq_refl) eq_refl) as (k & fs & l & S & Hs & Hx & _). exists k, fs, l. auto.
Qed.
Example C43_ex : exists k fs l, structFields omitH k (TNamed 2) = Some fs /\ shown_bytes omitH omitV default_opts (TNamed 2) false omit_w fs l /\
  forall f b, In (f, Some b) l -> exists body, infix (34 :: body ++ 34 :: 58 :: b) (bs "{""B"":7,""D~u003c~u0026"":true}").
Proof.
  destruct (C43_member_names omitH omitV _ _ _ _ _ _ _ (TNamed 2) false false [fld "B" "" (TInt KInt); fld "C" ",omitnil" (TNamed 0); fld "D" "D<&" TBool] [VInt 7; VStruct [VInt 0]; VBool true]
    omit_ok (constH_sort _ _ _) omit_call omit_good (inner_refl _ _ _) (conj eq_refl eq_refl) eq_refl) as (k & fs & l & S & Hs & _ & Hx). exists k, fs, l. split; [exact S|]. split; [exact Hs|].
  intros f b Hb. destruct (Hx f b Hb) as (body & us & A & _). exists body. exact A.
Qed.

(** C18-C20, C42: embedding by value and by pointer, a name hidden by a less
    deep one, tags and omitempty.
    type A struct{ X int; Y string; N int `json:"n,omitempty"` };
    type B struct{ Y string; Z int `json:"-"`; W int `json:"w x,string"` };
    type T struct{ A; *B; Y bool; S []int `json:",omitempty"` } *)
Definition emb_ptr (name : string) (t : typ) : fdecl * typ := (mkFD (lit name) false true [], TPtr t).
Definition fieldH : host := plainH
  [TStruct [fld "X" "" (TInt KInt); fld "Y" "" TString; fld "N" "n,omitempty" (TInt KInt)]; TStruct [fld "Y" "" TString; fld "Z" "-" (TInt KInt); fld "W" "w x,string" (TInt KInt)];
   TStruct [emb "A" (TNamed 0); emb_ptr "B" (TNamed 1); fld "Y" "" TBool; fld "S" ",omitempty" (TSlice (TInt KInt))]].
Lemma field_ok : host_ok fieldH plainV. Proof. apply plainH_ok. vm_compute. reflexivity. Qed.
Definition field_v : val := VStruct [VStruct [VInt 5; VStr (lit "a"); VInt 0]; VPtr (VStruct [VStr (lit "b"); VInt 1; VInt 2]); VBool true; VSlice []].
Definition field_nil : val := VStruct [VStruct [VInt 5; VStr (lit "a"); VInt 6]; VNil; VBool true; VNil].
Lemma field_call : call fieldH (mem_of fieldH (TNamed 2) field_v) (TNamed 2) (word_of fieldH (TNamed 2) field_v) field_v [] default_opts.
Proof. apply (plain_call _ 10); vm_compute; reflexivity. Qed.
Example field_good : marshal_returns fieldH (mem_of fieldH (TNamed 2) field_v) (Some (TNamed 2, word_of fieldH (TNamed 2) field_v)) [] (MOk (lit "{""X"":5,""w x"":""2"",""Y"":true}")).
Proof. exists 12%nat; split; [vm_compute; reflexivity | discriminate]. Qed.
Example field_nil_good : marshal_returns fieldH (mem_of fieldH (TNamed 2) field_nil) (Some (TNamed 2, word_of fieldH (TNamed 2) field_nil)) [] (MOk (lit "{""X"":5,""n"":6,""Y"":true}")).
Proof. exists 12%nat; split; [vm_compute; reflexivity | discriminate]. Qed.
Definition field_fs : list field := match structFields fieldH 10 (TNamed 2) with Some fs => fs | None => [] end.
Lemma field_sf : structFields fieldH 10 (TNamed 2) = Some field_fs. Proof. vm_compute. reflexivity. Qed.
Example C18_ex : map f_name field_fs = [lit "X"; lit "n"; lit "w x"; lit "Y"; lit "S"] /\ StronglySorted before (map f_index field_fs).
Proof. split; [vm_compute; reflexivity|]. exact (proj1 (C18_order_unique fieldH plainV (TNamed 2) 10 field_fs field_ok I field_sf)). Qed.
Definition nth_field (i : nat) : field := nth i field_fs (mkField [] false false false false [] []).
(** No struct is embedded twice, so the rule is followed exactly. *)
Lemma field_single : single_diamonds fieldH (TNamed 2).
Proof.
  assert (G : forall p sq w, steps fieldH (TNamed 2) p sq w -> p = [] /\ w = TNamed 2 \/ p = [0%nat] /\ w = TNamed 0 \/ p = [1%nat] /\ w = TNamed 1).
  { intros p sq w Hp. induction Hp as [|p sq w i isptr fs u Hp IH He Hs]; [left; auto|].
    destruct He as (fs' & d & u' & n & opts & A1 & A2 & _ & A4 & _ & _ & A7 & A8 & _). unfold struct_of in A1.
    destruct IH as [[-> ->]|[[-> ->]|[-> ->]]]; cbn in A1; injection A1 as <-.
    - destruct i as [|[|[|[|[|]]]]]; cbn in A2; try discriminate; injection A2 as <- <-; cbn in A4; try discriminate A4; right; [left | right]; (split; [reflexivity|]).
      + destruct A7 as [C|[_ ->]]; [discriminate | reflexivity].
      + destruct A7 as [[= ->]|[C _]]; [reflexivity | exfalso; apply (C (TNamed 1)); reflexivity].
    - destruct i as [|[|[|[|]]]]; cbn in A2; try discriminate; injection A2 as <- <-; discriminate A4.
    - destruct i as [|[|[|[|]]]]; cbn in A2; try discriminate; injection A2 as <- <-; discriminate A4. }
  intros p q sq sq' w i b u P1 P2 Ne. exfalso. apply Ne. destruct (G _ _ _ P1) as [[-> ->]|[[-> ->]|[-> ->]]], (G _ _ _ P2) as [[-> Ew]|[[-> Ew]|[-> Ew]]]; try discriminate Ew; reflexivity.
Qed.
Example C18_ex_exact : forall f, In f field_fs -> sole fieldH (TNamed 2) (f_index f) (f_name f) (f_tag f).
Proof.
  destruct (C18_selection_partial fieldH plainV (TNamed 2) field_ok I) as (k & fs & S & _ & _ & L). intros f Hf. apply L; [exact field_single|].
  assert (fs = field_fs) by (eapply structFields_det; [exact S | exact field_sf]). subst fs. exact Hf.
Qed.
Example C20_ex : exists k fs l, structFields fieldH k (TNamed 2) = Some fs /\ infix (object_text default_opts l) (lit "{""X"":5,""w x"":""2"",""Y"":true}") /\ sublist (map fst l) fs.
Proof.
  destruct (C20_fields_present fieldH plainV _ _ _ _ _ _ _ (TNamed 2) false false [emb "A" (TNamed 0); emb_ptr "B" (TNamed 1); fld "Y" "" TBool; fld "S" ",omitempty" (TSlice (TInt KInt))]
    [VStruct [VInt 5; VStr (lit "a"); VInt 0]; VPtr (VStruct [VStr (lit "b"); VInt 1; VInt 2]); VBool true; VSlice []]
    field_ok (constH_sort _ _ _) field_call field_good (inner_refl _ _ _) (conj eq_refl eq_refl) eq_refl) as (k & fs & l & S & Hx & Hl & _). exists k, fs, l. auto.
Qed.
(** X is promoted from A. *)
Example C19_ex : exists l, int_lit l 5 /\ infix (key_text default_opts (lit "X") ++ l) (lit "{""X"":5,""w x"":""2"",""Y"":true}").
Proof.
  assert (Hf : In (nth_field 0) field_fs) by (vm_compute; left; reflexivity).
  destruct (C42_tags fieldH plainV (TNamed 2) 10 field_fs (nth_field 0) field_ok I field_sf Hf) as (d & u & n & topts & D & Tu & _). vm_compute in Tu. injection Tu as <-.
  apply (C19_integer_partial fieldH plainV _ _ _ _ [] default_opts _ (TNamed 2) false false [emb "A" (TNamed 0); emb_ptr "B" (TNamed 1); fld "Y" "" TBool; fld "S" ",omitempty" (TSlice (TInt KInt))]
    [VStruct [VInt 5; VStr (lit "a"); VInt 0]; VPtr (VStruct [VStr (lit "b"); VInt 1; VInt 2]); VBool true; VSlice []] 10 field_fs (nth_field 0) KInt 5 d (TInt KInt) n topts
    field_ok (constH_sort _ _ _) field_call field_good (inner_refl _ _ _) (conj eq_refl eq_refl) eq_refl field_sf Hf D eq_refl (conj eq_refl eq_refl) eq_refl eq_refl eq_refl).
  - rewrite <- denied_concealed. intros [(x & C & _)|(x & C & _)]; vm_compute in C; discriminate.
  - apply vget_leads; [discriminate | reflexivity].
Qed.
Example C42_ex : f_name (nth_field 2) = lit "w x" /\ f_quoted (nth_field 2) = true /\ f_omitEmpty (nth_field 1) = true /\ ~ In (lit "Z") (map f_name field_fs).
Proof. repeat split. intros C. vm_compute in C. repeat (destruct C as [C|C]; [discriminate|]). exact C. Qed.

Print Assumptions C18_order_unique.
Print Assumptions C18_selection_partial.
Print Assumptions C18_selection_refuted.
Print Assumptions C19_promoted_partial.
Print Assumptions C19_integer_partial.
Print Assumptions C19_offsets_partial.
Print Assumptions C19_promoted_refuted.
Print Assumptions C20_fields_present.
Print Assumptions C21_omitnil_partial.
Print Assumptions C21_omitnil_refuted.
Print Assumptions C42_tags.
Print Assumptions C42_dash.
Print Assumptions C43_member_names.
