(** C71: a document is one line.  Documents can be sent one after the other,
    each followed by a newline, and read back by cutting at the newlines. *)
From Coq Require Import Permutation.
From Verif Require Import Base Utf8 JsonSpec OptionsModel EscapeModel EscapeProof NumberProof JsonParse CompactModel CompactProof IntModel TypesModel TypesFacts TagsModel TagsProof FloatModel FloatProof
  MemModel FieldsModel FieldsProof InstrModel ExecModel ValueModel ExecMono ExecProof HostFacts VencFacts MarshalThm DocSpec EntriesFacts DocLeaf PartFacts DocProof ApiFacts PartsThm CallFacts
  TextThm ExampleHost ExampleConst ExampleRead Properties_Options Properties_Strings Properties_Maps Properties_Api Properties_Numbers Properties_Safe.

(** No control characters. *)
Definition one_line (s : bytes) : Prop := Forall (fun b => 0x20 <= b) s.

Lemma one_line_jchars lax us s : jchars lax us s -> one_line s.
Proof.
  intros Hj. induction Hj as [|r us s Hr R1 R2 R3 Hj IH|c u us s He Hj IH|h1 h2 h3 h4 a b c d us s A1 A2 A3 A4 Hj IH|b us s L Bb Nr Hj IH].
  - constructor.
  - apply Forall_app. split; [|exact IH]. destruct (Z_lt_le_dec r 0x80) as [X|X].
    + rewrite utf8_ascii by (unfold scalar in Hr; lia). constructor; [exact R1 | constructor].
    + eapply Forall_impl; [|apply (utf8_high r Hr X)]. cbn. intros. lia.
  - constructor; [lia|]. constructor; [|exact IH]. destruct (Z_lt_le_dec c 32) as [X|X]; [exfalso|exact X].
    assert (F : forall k, 32 < k -> (c =? k) = false) by (clear -X; intros; lia). unfold esc2 in He. rewrite !F in He by reflexivity. discriminate.
  - apply hexval_ascii in A1, A2, A3, A4. repeat (constructor; [lia|]). exact IH.
  - constructor; [|exact IH]. destruct (Z_lt_le_dec b 0x80) as [X|X]; [exfalso|lia]. apply (Nr b s); [unfold scalar, is_byte in *; lia|].
    rewrite utf8_ascii by (unfold is_byte in Bb; lia). reflexivity.
Qed.

Lemma one_line_json lax :
  (forall v s, json no_ws lax v s -> one_line s) /\ (forall vs s, jelems no_ws lax vs s -> one_line s) /\ (forall ms s, jmembers no_ws lax ms s -> one_line s).
Proof.
  assert (A : forall a b, one_line a -> one_line b -> one_line (a ++ b)) by (intros; apply Forall_app; auto).
  assert (K : forall c s, 0x20 <= c -> one_line s -> one_line (c :: s)) by (intros; constructor; auto).
  assert (N : forall w, no_ws w -> one_line w) by (intros w ->; constructor).
  assert (Z0 : one_line []) by constructor.
  apply json_mutind; intros.
  - unfold l_null. repeat (apply K; [lia|]). exact Z0.
  - unfold l_true. repeat (apply K; [lia|]). exact Z0.
  - unfold l_false. repeat (apply K; [lia|]). exact Z0.
  - match goal with X : jnumber _ |- _ => eapply Forall_impl; [|apply jnumber_chars, X] end. unfold numchar, digit. cbn. intros; lia.
  - apply K; [lia|]. apply A; [eapply one_line_jchars; eauto | apply K; [lia | exact Z0]].
  - apply K; [lia|]. apply A; [apply N; assumption | apply K; [lia | exact Z0]].
  - apply K; [lia|]. apply A; [assumption | apply K; [lia | exact Z0]].
  - apply K; [lia|]. apply A; [apply N; assumption | apply K; [lia | exact Z0]].
  - apply K; [lia|]. apply A; [assumption | apply K; [lia | exact Z0]].
  - repeat apply A; auto.
  - repeat apply A; auto. apply K; [lia | assumption].
  - apply A; [auto|]. apply K; [lia|]. apply A; [eapply one_line_jchars; eauto|]. apply K; [lia|]. apply A; [auto|]. apply K; [lia|]. repeat apply A; auto.
  - apply A; [auto|]. apply K; [lia|]. apply A; [eapply one_line_jchars; eauto|]. apply K; [lia|]. apply A; [auto|]. apply K; [lia|]. apply A; [auto|]. apply A; [auto|]. apply A; [auto|].
    apply K; [lia | assumption].
Qed.

(** What is asked of a call: escaping is on, the texts that are copied as they
    are have no control characters, and raw messages that are compacted are
    JSON.  Nothing is asked of the results of MarshalJSON, which are checked. *)
Definition line_call (H : host) vcall (m : mem) t w v opts o : Prop :=
  call H m t w v opts o /\ has (o_flags o) noStringEscaping = false /\
  (forall y s, part H o (t, is_ptr H t, false, v) y -> supplied H vcall o y false s -> one_line s) /\
  (forall ca q vs s, part H o (t, is_ptr H t, false, v) (TRawMessage, ca, q, VSlice vs) -> vbytes vs = Some s -> has (o_flags o) noCompact = false -> exists j, json_text true j s).

Theorem C71_line H vcall m t w v opts o out : host_ok H vcall -> shortest_ok (h_shortest H) -> sort_ok H ->
  line_call H vcall m t w v opts o -> marshal_returns H m (Some (t, w)) opts (MOk out) -> one_line out.
Proof.
  intros OK SH SO (C & F1 & Hs & Hj) R. eapply (call_text H vcall OK SH SO m t w v opts o out one_line C R).
  - intros a b Ha Hb. apply Forall_app. auto.
  - intros s (rs & Hu & Hf). clear -Hu Hf. induction Hu as [|r s rs Hr Hu IH]; [constructor|]. inversion Hf as [|? ? Sr Hf']; subst. apply Forall_app. split; [|apply IH, Hf'].
    destruct Sr as (Sr & _). destruct (Z_lt_le_dec r 0x80) as [X|X]; [rewrite utf8_ascii by lia; constructor; [exact Sr | constructor]|].
    eapply Forall_impl; [|apply (utf8_high r Hr X)]. cbn. intros. lia.
  - intros s Hb. destruct (segments_total s Hb) as (segs & Hsg). rewrite (escaped_segments o s segs Hb Hsg F1). eapply one_line_jchars, escaped_jchars; eauto.
  - intros name rs Hk _. destruct (key_json name rs Hk) as [(k1 & E1 & J1) (k2 & E2 & J2)]. unfold key_text.
    destruct (has (o_flags o) noHTMLEscaping); [rewrite E1 | rewrite E2]; (apply Forall_app; split; [eapply (proj1 (one_line_json false)); eassumption | constructor; [lia | constructor]]).
  - assert (G : forall b j, bytes_ok b -> json_text true j b -> one_line (cs (negb (has (o_flags o) noHTMLEscaping)) false false b)).
    { intros b j Hb Jb. destruct (cs_text (negb (has (o_flags o) noHTMLEscaping)) true j b Jb Hb) as (s' & -> & J' & _). eapply (proj1 (one_line_json true)); eauto. }
    intros y s Hp Ho. assert (O2 := outside_supplied _ _ _ _ _ Ho). destruct O2 as [O2|(b & O2 & _)]; [eapply Hs; eauto|].
    destruct y as [[[t' ca'] q'] v']. destruct (native t') eqn:En.
    + destruct t'; try discriminate En; destruct v'; cbn [supplied] in O2; try contradiction; try solve [destruct O2 as (X & _); discriminate X].
      destruct O2 as (Nc & Vb). cbn [outside] in Ho. destruct Ho as (b' & Vb' & ->). assert (b' = b) as -> by congruence.
      unfold given. assert (Nf : has (o_flags o) noCompact = false) by (destruct (has (o_flags o) noCompact); [discriminate Nc | reflexivity]). rewrite Nf.
      destruct (Hj _ _ _ _ Hp Vb Nf) as [j Jb]. eapply G; [|exact Jb].
      destruct (part_held H vcall OK o m _ _ (call_held H vcall OK m t w v opts o C) Hp) as (_ & l & Hl). eapply (vbytes_ok H m l TRawMessage (TInt KUint8)); eauto.
    + assert (X : exists k hp td w0 b0, method_of H t' ca' = Some (k, hp) /\ receiver H t' hp v' td w0 /\ vcall k td w0 (ctx_of o k) = inl b0 /\
        s = match k with MJson => given o b0 | _ => b0 end /\ (k = MJson -> has (o_flags o) noCompact = false -> exists j, json_text true j b0)) by (destruct t'; try discriminate En; exact Ho).
      assert (Y : exists k hp td w0, method_of H t' ca' = Some (k, hp) /\ receiver H t' hp v' td w0 /\ vcall k td w0 (ctx_of o k) = inl b /\
        true = match k with MJson => negb (has (o_flags o) noCompact) | _ => false end) by (destruct t'; try discriminate En; exact O2).
      destruct X as (k & hp & td & w0 & b0 & X1 & X2 & X3 & -> & X5). destruct Y as (k' & hp' & td' & w' & Y1 & _ & _ & Y4). assert (k' = k) as -> by congruence.
      destruct k; try discriminate Y4. assert (Nf : has (o_flags o) noCompact = false) by (destruct (has (o_flags o) noCompact); [discriminate Y4 | reflexivity]).
      unfold given. rewrite Nf. destruct (X5 eq_refl Nf) as [j Jb]. eapply G; [|exact Jb]. eapply ok_bytes; eauto.
Qed.

(** ** Streams of documents *)
Definition stream (docs : list bytes) : bytes := flat_map (fun d => d ++ [10]) docs.

Lemma stream_cut l1 l2 : Forall (fun d => ~ In 10 d) l1 -> Forall (fun d => ~ In 10 d) l2 -> stream l1 = stream l2 -> l1 = l2.
Proof.
  assert (C : forall a b x y, ~ In 10 a -> ~ In 10 b -> (a ++ [10]) ++ x = (b ++ [10]) ++ y -> a = b /\ x = y).
  { induction a as [|c a IH]; intros b x y Ha Hb E; destruct b as [|d b]; cbn [app] in E; [injection E as E2|injection E as E1 E2..].
    - auto.
    - exfalso. apply Hb. left. congruence.
    - exfalso. apply Ha. left. congruence.
    - subst d. destruct (IH b x y) as [-> ->]; auto; intros X; [apply Ha | apply Hb]; right; exact X. }
  revert l2. induction l1 as [|a l1 IH]; intros l2 F1 F2 E; destruct l2 as [|b l2].
  - reflexivity.
  - exfalso. unfold stream in E. cbn [flat_map] in E. destruct b; discriminate E.
  - exfalso. unfold stream in E. cbn [flat_map] in E. destruct a; discriminate E.
  - inversion F1 as [|? ? A1 A2]; inversion F2 as [|? ? B1 B2]; subst. unfold stream in E. cbn [flat_map] in E. destruct (C _ _ _ _ A1 B1 E) as [-> E']. f_equal. apply IH; assumption.
Qed.

(** A stream of documents, whatever the calls that gave them, is cut in only
    one way at its newlines, and that gives the documents. *)
Theorem C71_stream H vcall docs : host_ok H vcall -> shortest_ok (h_shortest H) -> sort_ok H ->
  Forall (fun out => exists m t w v opts o, line_call H vcall m t w v opts o /\ marshal_returns H m (Some (t, w)) opts (MOk out)) docs ->
  forall ls, Forall (fun l => ~ In 10 l) ls -> (stream ls = stream docs <-> ls = docs).
Proof.
  intros OK SH SO Hd ls Hl. split; [|intros ->; reflexivity]. apply stream_cut; [exact Hl|].
  eapply Forall_impl; [|exact Hd]. intros out (m & t & w & v & opts & o & C & R) Hi. assert (L := C71_line H vcall m t w v opts o out OK SH SO C R).
  unfold one_line in L. rewrite Forall_forall in L. specialize (L _ Hi). lia.
Qed.

(** ** The conditions are needed *)
(** json.RawMessage with a newline between quotes: it is not JSON, and raw
    messages are not checked. *)
Definition nl_raw : val := VSlice (map VInt [34; 10; 34]).
Lemma nl_raw_call : call mapH (mem_of mapH TRawMessage nl_raw) TRawMessage (word_of mapH TRawMessage nl_raw) nl_raw [] default_opts.
Proof. apply (plain_call _ 10); vm_compute; reflexivity. Qed.
Theorem C71_raw_refuted : host_ok mapH plainV /\ exists m t w v out, call mapH m t w v [] default_opts /\ marshal_returns mapH m (Some (t, w)) [] (MOk out) /\ ~ one_line out.
Proof.
  split; [exact map_ok|]. do 4 eexists. exists [34; 10; 34]. split; [exact nl_raw_call|]. split; [exists 12%nat; split; [vm_compute; reflexivity | discriminate]|].
  intros X. inversion X as [|? ? _ X1]; subst. inversion X1 as [|? ? X2 _]; subst. lia.
Qed.

(** type T int; func (T) MarshalText() ([]byte, error), which gives a newline *)
Definition nl_impl (t : typ) (k : mkind) : bool := match t, k with TNamed 0, MText => true | _, _ => false end.
Definition nl_result (k : mkind) (td : typ) (ctx : option Z) : bytes + Z := inl [10].
Definition nlH : host := constH [TInt KInt] nl_impl nl_result.
Lemma nl_ok : host_ok nlH (constV nl_result).
Proof. apply constH_ok; [vm_compute; reflexivity|]. intros k td ctx b [= <-]. apply bytes_okb_ok. reflexivity. Qed.
Theorem C71_text_refuted : host_ok nlH (constV nl_result) /\ exists m t w v out, call nlH m t w v [] default_opts /\ marshal_returns nlH m (Some (t, w)) [] (MOk out) /\ ~ one_line out.
Proof.
  split; [exact nl_ok|]. exists (mem_of nlH (TNamed 0) (VInt 1)), (TNamed 0), (word_of nlH (TNamed 0) (VInt 1)), (VInt 1), [34; 10; 34].
  split; [apply (const_call _ nl_impl nl_result 10); vm_compute; reflexivity|]. split; [exists 12%nat; split; [vm_compute; reflexivity | discriminate]|].
  intros X. inversion X as [|? ? _ X1]; subst. inversion X1 as [|? ? X2 _]; subst. lia.
Qed.

(** ** Examples
    map[string]json.RawMessage, with newlines in the key and between the tokens
    of the message. *)
Definition ln_t : typ := TMap TString TRawMessage.
Definition ln_raw : bytes := lit "{""a"" :" ++ [10] ++ lit "[1," ++ [13; 10; 9] ++ lit "2]}".
Definition ln_v : val := VMap [(VStr (lit "k" ++ [10; 0; 31]), VSlice (map VInt ln_raw))].
Definition ln_out : bytes := lit "{""k\n\u0000\u001f"":{""a"":[1,2]}}".
Lemma ln_call : call mapH (mem_of mapH ln_t ln_v) ln_t (word_of mapH ln_t ln_v) ln_v [] default_opts.
Proof. apply (plain_call _ 10); vm_compute; reflexivity. Qed.
Lemma ln_marshal : marshal_returns mapH (mem_of mapH ln_t ln_v) (Some (ln_t, word_of mapH ln_t ln_v)) [] (MOk ln_out).
Proof. exists 20%nat. split; [vm_compute; reflexivity | discriminate]. Qed.
Lemma ln_part y : part mapH default_opts (ln_t, is_ptr mapH ln_t, false, ln_v) y ->
  y = (ln_t, is_ptr mapH ln_t, false, ln_v) \/ y = (TRawMessage, false, false, VSlice (map VInt ln_raw)).
Proof.
  intros Hp. inversion Hp as [|? y1 ? Hc Hp1]; subst; [left; reflexivity|]. right.
  inversion Hc as [| | | |? ? ? ? ? ? ? ? ? U ? ? S|? ? ? ? ? ? ? ? ? U ? Hi| | |]; subst; try discriminate; injection U as <- <-; [discriminate S|].
  destruct Hi as [[= <- <-]|[]]. clear Hc Hp. inversion Hp1 as [|? y2 ? Hc Hp2]; subst; [reflexivity|].
  exfalso. inversion Hc as [? ? ? ? ? [N _]|? ? ? ? ? [N _]|? ? ? ? ? ? [N _]|? ? ? ? ? ? ? [N _]|? ? ? ? ? ? ? ? [N _]|? ? ? ? ? ? ? ? [N _]|? ? ? ? ? ? ? ? ? ? [N _]| |]; subst; discriminate.
Qed.
Lemma ln_line : line_call mapH plainV (mem_of mapH ln_t ln_v) ln_t (word_of mapH ln_t ln_v) ln_v [] default_opts.
Proof.
  split; [exact ln_call|]. split; [reflexivity|]. split.
  - intros y s Hp Hs. exfalso. destruct (ln_part y Hp) as [-> | ->].
    + destruct Hs as (k & hp & td & w & X & _). discriminate X.
    + destruct Hs as (X & _). discriminate X.
  - intros ca q vs s Hp Hv _. destruct (ln_part _ Hp) as [E|E]; [discriminate E|]. injection E as _ _ ->. vm_compute in Hv. injection Hv as <-.
    apply json_valid_correct; [repeat (constructor; [unfold is_byte; lia|]); constructor | vm_compute; reflexivity].
Qed.
Example C71_ex_line : one_line ln_out.
Proof. exact (C71_line mapH plainV _ _ _ _ _ _ _ map_ok ex_shortest (constH_sort _ _ _) ln_line ln_marshal). Qed.
Example C71_ex_stream : forall ls, Forall (fun l => ~ In 10 l) ls -> (stream ls = stream [ln_out; ln_out] <-> ls = [ln_out; ln_out]).
Proof.
  apply (C71_stream mapH plainV [ln_out; ln_out] map_ok ex_shortest (constH_sort _ _ _)).
  repeat constructor; do 6 eexists; (split; [exact ln_line | exact ln_marshal]).
Qed.

(** type T int; func (T) MarshalJSON() ([]byte, error), whose result has newlines *)
Definition mj_impl (t : typ) (k : mkind) : bool := match t, k with TNamed 0, MJson => true | _, _ => false end.
Definition mj_result (k : mkind) (td : typ) (ctx : option Z) : bytes + Z := inl ln_raw.
Definition mjH : host := constH [TInt KInt] mj_impl mj_result.
Lemma mj_ok : host_ok mjH (constV mj_result).
Proof. apply constH_ok; [vm_compute; reflexivity|]. intros k td ctx b [= <-]. apply bytes_okb_ok. reflexivity. Qed.
Lemma mj_line : line_call mjH (constV mj_result) (mem_of mjH (TNamed 0) (VInt 1)) (TNamed 0) (word_of mjH (TNamed 0) (VInt 1)) (VInt 1) [] default_opts.
Proof.
  split; [apply (const_call _ mj_impl mj_result 10); vm_compute; reflexivity|]. split; [reflexivity|].
  assert (Pt : forall y, part mjH default_opts (TNamed 0, is_ptr mjH (TNamed 0), false, VInt 1) y -> y = (TNamed 0, is_ptr mjH (TNamed 0), false, VInt 1)).
  { intros y Hp. inversion Hp as [|? y1 ? Hc Hp1]; subst; [reflexivity|]. exfalso. inversion Hc; subst; discriminate. }
  split.
  - intros y s Hp Hs. rewrite (Pt y Hp) in Hs. destruct Hs as (k & hp & td & w & X & _ & _ & J). vm_compute in X. injection X as <- <-. discriminate J.
  - intros ca q vs s Hp. apply Pt in Hp. discriminate Hp.
Qed.
Example C71_ex_method : one_line (lit "{""a"":[1,2]}").
Proof.
  refine (C71_line mjH (constV mj_result) _ _ _ _ _ _ _ mj_ok ex_shortest (constH_sort _ _ _) mj_line _). exists 12%nat. split; [vm_compute; reflexivity | discriminate].
Qed.

Print Assumptions C71_line.
Print Assumptions C71_stream.
Print Assumptions C71_raw_refuted.
Print Assumptions C71_text_refuted.
