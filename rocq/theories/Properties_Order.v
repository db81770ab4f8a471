(** C08, C23, C25: when raw messages are checked, when the members of a sorted
    map are in the order of the keys, and when the names of native keys are
    strings. *)
From Coq Require Import Permutation Sorted.
From Verif Require Import Base Utf8 JsonSpec OptionsModel EscapeModel EscapeProof IntModel TypesModel TypesFacts LeafModel LeafProof
  MemModel FieldsModel InstrModel ExecModel ValueModel ExecProof HostFacts VencFacts MarshalThm DocSpec EntriesFacts DocLeaf PartFacts DocProof ExecLeaf NumberProof JsonParse FloatModel FloatProof TimeModel IntProof DurationModel SafeProof ApiFacts PartsThm ShapeThm CallFacts ShuffleThm OrderThm
  ExampleHost ExampleVals ExampleConst ExampleRead Properties_Options Properties_Strings Properties_Numbers Properties_Members Properties_Maps Properties_Raw.

Lemma lexle_antisym a b : lexle a b -> lexle b a -> a = b.
Proof. intros A. induction A; intros B; inversion B; subst; try lia; [reflexivity | f_equal; auto]. Qed.
Lemma lexle_total a : forall b, lexle a b \/ lexle b a.
Proof.
  induction a as [|x a IH]; intros b; [left; constructor|]. destruct b as [|y b]; [right; constructor|].
  destruct (Z.lt_total x y) as [L|[->|L]]; [left; apply ll_lt, L | destruct (IH b); [left | right]; apply ll_cons; assumption | right; apply ll_lt, L].
Qed.

(** The two orders agree on a list sorted by one of them if and only if the
    list is sorted by the other one. *)
Lemma sorted_agree {A} (f g : A -> bytes) l : (forall a b, In a l -> In b l -> g a = g b -> f a = f b) ->
  StronglySorted (fun a b => lexle (g a) (g b)) l ->
  (StronglySorted (fun a b => lexle (f a) (f b)) l <-> forall a b, In a l -> In b l -> lexle (f a) (f b) -> f a <> f b -> lexle (g a) (g b)).
Proof.
  intros Hinj Hs. induction Hs as [|x l Hs IH Hx]; [split; [intros _ a b [] | constructor]|].
  assert (Hinj' : forall a b, In a l -> In b l -> g a = g b -> f a = f b) by (intros; apply Hinj; [right | right |]; assumption). specialize (IH Hinj').
  rewrite Forall_forall in Hx. split.
  - intros Ht. inversion Ht as [|? ? Ht' Hy]; subst. rewrite Forall_forall in Hy. intros a b [<- | Ha] [<- | Hb] L N.
    + congruence.
    + apply Hx, Hb.
    + exfalso. apply N. apply lexle_antisym; [exact L | apply Hy, Ha].
    + apply IH; assumption.
  - intros Hc. constructor; [apply IH; intros; apply Hc; try right; assumption|]. apply Forall_forall. intros y Hy.
    destruct (lexle_total (f x) (f y)) as [L|L]; [exact L|].
    destruct (list_eq_dec Z.eq_dec (f y) (f x)) as [E|N]; [rewrite E in *; exact L|]. exfalso. apply N. apply Hinj; [right; exact Hy | left; reflexivity|].
    apply lexle_antisym; [apply Hc; [right; exact Hy | left; reflexivity | exact L | exact N] | apply Hx, Hy].
Qed.

(** What is written for a key, between the quotation marks. *)
Definition written_key (o : encOpts) (e : val * val) : bytes := sort_key (encode_string [] (raw_key e) o).

(** The members are in the order of the keys if and only if no key is before
    another one and its escaped form after that of the other. *)
Theorem C23_exact H vcall m t w v opts o out mt ca q kt et es : host_ok H vcall -> sort_ok H ->
  call H m t w v opts o -> marshal_returns H m (Some (t, w)) opts (MOk out) -> has (o_flags o) unsortedMap = false ->
  inner H o (t, is_ptr H t, false, v) (mt, ca, q, VMap es) -> DocSpec.plain H mt ca -> under (h_env H) mt = TMap kt et -> isString (h_env H) kt = true ->
  (forall k x, In (k, x) es -> exists s rs, k = VStr s /\ bytes_ok s /\ utf8_string s rs) ->
  exists es' kvs, Permutation es es' /\ Forall2 (entry_bytes H vcall o kt et) es' kvs /\ infix (123 :: join_members kvs ++ [125]) out /\
    (StronglySorted (fun a b => lexle (raw_key a) (raw_key b)) es' <->
     forall a b, In a es -> In b es -> lexle (raw_key a) (raw_key b) -> raw_key a <> raw_key b -> lexle (written_key o a) (written_key o b)).
Proof.
  intros OK SO C R Srt Hi P U Hs Hn. destruct (C22_members H vcall m t w v opts o out mt ca q kt et es OK SO C R Srt Hi P U) as (kvs & kvs' & Hf & Hp & Ho & Hx).
  assert (Hf' : Forall2 (fun kv e => entry_bytes H vcall o kt et e kv /\ In e es) kvs es).
  { assert (G : forall l, incl l es -> forall k, Forall2 (entry_bytes H vcall o kt et) l k -> Forall2 (fun kv e => entry_bytes H vcall o kt et e kv /\ In e es) k l).
    { induction l as [|a l IH]; intros Hl k Hk; inversion Hk; subst; constructor; [split; [assumption | apply Hl; left; reflexivity] | apply IH; [intros z Hz; apply Hl; right; exact Hz | assumption]]. }
    apply G; [apply incl_refl | exact Hf]. }
  destruct (Forall2_perm _ _ _ Hp _ Hf') as (es' & A1 & A2). exists es', kvs'. split; [exact A2|].
  split; [clear - A1; induction A1 as [|kv e kvs2 es2 [B1 _] _ IH]; constructor; assumption|]. split; [exact Hx|].
  assert (Q : forall e kv, entry_bytes H vcall o kt et e kv -> In e es -> sort_key (fst kv) = written_key o e).
  { intros [k x] [kb vb] [Kb _] Hin. cbn [fst snd] in *. destruct Kb as [(_ & s & Es & ->)|[(C1 & _)|(C1 & _)]]; [|congruence|congruence]. subst k. reflexivity. }
  assert (S1 : StronglySorted (fun a b => lexle (written_key o a) (written_key o b)) es').
  { clear - A1 Ho Q. revert es' A1. induction Ho as [|kv kvs' Hs IH Hh]; intros es' A1; inversion A1 as [|? e ? es1 [B1 B2] B3]; subst; constructor; [apply IH, B3|].
    clear - B1 B2 B3 Hh Q. revert es1 B3. induction Hh as [|kv1 kvs' Hl _ IH]; intros es1 B3; inversion B3 as [|? e1 ? es2 [D1 D2] D3]; subst; constructor; [|apply IH, D3].
    rewrite <- (Q _ _ B1 B2), <- (Q _ _ D1 D2). exact Hl. }
  rewrite (sorted_agree raw_key (written_key o) es'); [|clear S1 | exact S1].
  - split; intros G a b Ha Hb; apply G; [eapply Permutation_in; [exact A2 | exact Ha] | eapply Permutation_in; [exact A2 | exact Hb] | eapply Permutation_in; [apply Permutation_sym, A2 | exact Ha] | eapply Permutation_in; [apply Permutation_sym, A2 | exact Hb]].
  - intros [k x] [k' x'] Ha Hb E. apply (Permutation_in _ (Permutation_sym A2)) in Ha, Hb. destruct (Hn _ _ Ha) as (s & rs & -> & B & V). destruct (Hn _ _ Hb) as (s' & rs' & -> & B' & V').
    unfold written_key, raw_key in *. cbn [fst] in *. eapply string_key_inj; eauto.
Qed.

(** ** C25: keys of the native types *)
Definition is_name (kv : member) : Prop := exists us, json no_ws true (JStr us) (fst kv).

Lemma name_inv b : (exists us, json no_ws true (JStr us) b) -> exists us s, b = 34 :: s ++ [34] /\ jchars true us s.
Proof. intros (us & J). inversion J; eauto. Qed.

Lemma double_quoted b : ~ exists us, json no_ws true (JStr us) (34 :: (34 :: b ++ [34]) ++ [34]).
Proof.
  intros J. destruct (name_inv _ J) as (us & s & E & C). assert (E2 : 34 :: b ++ [34] = s) by (eapply app_inv_tail; exact (f_equal (@tl Z) E)). subst s.
  destruct us as [|u us].
  - remember (34 :: b ++ [34]) as l eqn:El. remember [] as us eqn:Eu in C. destruct C; try discriminate. destruct (utf16 r) eqn:U; [|discriminate]. unfold utf16 in U. destruct (_ <? _); discriminate.
  - destruct (jchars_head_not_quote _ _ _ C) as (c & t & E3 & N); [discriminate|]. congruence.
Qed.

Lemma int_not_name n : ~ exists us, json no_ws true (JStr us) (append_int [] n).
Proof.
  intros J. destruct (name_inv _ J) as (us & s & E & _). destruct (append_int_spec [] n) as (l & E1 & L). cbn [app] in E1. rewrite E in E1. subst l.
  apply int_lit_jnumber, jnumber_chars in L. inversion L as [|? ? D _]; subst. unfold numchar, digit in D. lia.
Qed.

(** The name of a time.Duration key is a JSON string if and only if durations
    are not written as strings; that of a time.Time key, for a time whose
    value encoding is sound, if and only if times are not written as numbers. *)
Theorem C25_exact H vcall m t w v opts o out mt ca q kt et es kvs : host_ok H vcall -> shortest_ok (h_shortest H) -> sort_ok H -> esc_on o ->
  call H m t w v opts o -> marshal_returns H m (Some (t, w)) opts (MOk out) ->
  inner H o (t, is_ptr H t, false, v) (mt, ca, q, VMap es) -> DocSpec.plain H mt ca -> under (h_env H) mt = TMap kt et -> Forall2 (entry_bytes H vcall o kt et) es kvs ->
  (kt = TDuration -> h_impl H kt MText = false -> Forall (fun kv => is_name kv <-> o_durationFmt o <> DurationString) kvs) /\
  (kt = TTime -> h_impl H kt MText = true -> (forall g x, In (VTime g, x) es -> time_sound H o g) -> Forall (fun kv => is_name kv <-> has (o_flags o) unixTime = false) kvs).
Proof.
  intros OK SH SO ON C R Hi P U Hf.
  assert (Nat_ : forall k, native kt = true -> kt = TDuration \/ kt = TTime -> sound_node H vcall o true (kt, false, false, k) -> all_sound H vcall o true (kt, false, false, k)).
  { intros k Nk Ek Hs y Hy. assert (y = (kt, false, false, k)). { inversion Hy as [|? z ? Hc]; subst; [reflexivity|]. destruct Ek as [-> | ->]; inversion Hc as [? ? ? ? ? [X _]|? ? ? ? ? [X _]|? ? ? ? ? ? [X _]|? ? ? ? ? ? ? [X _]|? ? ? ? ? ? ? ? [X _]|? ? ? ? ? ? ? ? [X _]|? ? ? ? ? ? ? ? ? ? [X _]| |]; discriminate X. }
    subst y. exact Hs. }
  assert (G : forall Q : Prop, (Q -> forall k x, In (k, x) es -> key_covered H vcall o kt false k) -> (~ Q -> forall k x kb, In (k, x) es -> key_bytes H vcall o kt false k kb -> ~ exists us, json no_ws true (JStr us) kb) ->
    (Q \/ ~ Q) -> Forall (fun kv => is_name kv <-> Q) kvs).
  { intros Q Y N [D|D].
    - assert (A := C25_names_partial H vcall m t w v opts o out mt ca q kt et es kvs OK SH SO ON C R Hi P U (Y D) Hf). clear - A D.
      induction A as [|e kv es kvs (us & _ & J) _ IH]; constructor; [split; [intros _; exact D | intros _; exists us; exact J] | exact IH].
    - specialize (N D). clear - N D Hf. induction Hf as [|[k x] kv es kvs [K _] Hf IH]; constructor; [split; [intros X; destruct (N k x (fst kv) (or_introl eq_refl) K X) | intros X; destruct (D X)]|].
      apply IH. intros k' x' kb Hin. apply (N k' x'). right. exact Hin. }
  split.
  - intros -> Hm. apply G.
    + intros D k x Hin. right. right. split; [intros _; rewrite Hm; left; split; [reflexivity | exact D]|]. apply Nat_; [reflexivity | left; reflexivity | reflexivity].
    + intros D k x kb Hin [(C1 & _)|[(_ & _ & C1 & _)|(_ & _ & b & [n Hn] & ->)]]; [discriminate | congruence|]. rewrite Hm.
      assert (D' : o_durationFmt o = DurationString) by lia. destruct n as [|n]; [discriminate|]. cbn [venc native vnative] in Hn. destruct k; try discriminate.
      unfold encode_duration in Hn. rewrite D' in Hn. cbn [Z.eqb] in Hn. rewrite append_duration_app in Hn. destruct (append_duration [] _) as [r|]; [|discriminate]. cbn [lift app] in Hn.
      change (34 :: r ++ [34]) with ((34 :: r) ++ [34]) in Hn. injection Hn as <-. exact (double_quoted r).
    + lia.
  - intros -> Hm Hs. apply G.
    + intros D k x Hin. right. right. split; [intros _; rewrite Hm; left; split; [reflexivity | exact D]|]. apply Nat_; [reflexivity | right; reflexivity|]. cbn. destruct k; try exact I. eapply Hs. exact Hin.
    + intros D k x kb Hin [(C1 & _)|[(_ & _ & _ & C1 & _)|(_ & _ & b & [n Hn] & ->)]]; [discriminate | discriminate|]. rewrite Hm.
      assert (D' : has (o_flags o) unixTime = true) by (destruct (has (o_flags o) unixTime); [reflexivity | exfalso; auto]). destruct n as [|n]; [discriminate|]. cbn [venc native vnative] in Hn. destruct k; try discriminate.
      unfold encode_time in Hn. rewrite D' in Hn. destruct (_ || _); [discriminate|]. injection Hn as <-. apply int_not_name.
    + destruct (has (o_flags o) unixTime); [right; discriminate | left; reflexivity].
Qed.

(** ** Concrete cases *)
(** map[string]int{"\n": 1, "A": 2}: the members are not in the order of the keys ... *)
Definition nl_es : list (val * val) := [(VStr [10], VInt 1); (VStr (lit "A"), VInt 2)].
Example C23_exact_escaped : exists es' kvs, Permutation nl_es es' /\ Forall2 (entry_bytes mapH plainV default_opts TString (TInt KInt)) es' kvs /\
  infix (123 :: join_members kvs ++ [125]) (bs "{""A"":2,""~n"":1}") /\ ~ StronglySorted (fun a b => lexle (raw_key a) (raw_key b)) es'.
Proof.
  destruct (C23_exact mapH plainV _ _ _ _ _ _ _ tmap false false TString (TInt KInt) nl_es map_ok (constH_sort _ _ _) nl_call nl_out eq_refl (inner_refl _ _ _) (conj eq_refl eq_refl) eq_refl eq_refl)
    as (es' & kvs & A & B & D & E).
  - intros k x [[= <- <-]|[[= <- <-]|[]]].
    + exists [10], [10]. split; [reflexivity|]. split; [apply bytes_okb_ok; reflexivity | apply (us_cons 10 [] []); [left; lia | constructor]].
    + exists [65], [65]. split; [reflexivity|]. split; [apply bytes_okb_ok; reflexivity | apply (us_cons 65 [] []); [left; lia | constructor]].
  - exists es', kvs. split; [exact A|]. split; [exact B|]. split; [exact D|]. intros S. rewrite E in S.
    specialize (S _ _ (or_introl eq_refl) (or_intror (or_introl eq_refl)) ltac:(cbn; apply ll_lt; lia) ltac:(discriminate)). vm_compute in S. inversion S; lia.
Qed.

(** ... and map[string]int{"\n": 1, "a": 2}, where they are although one key is
    escaped. *)
Definition na_es : list (val * val) := [(VStr (lit "a"), VInt 2); (VStr [10], VInt 1)].
Definition na_v : val := VMap na_es.
Lemma na_call : call mapH (mem_of mapH tmap na_v) tmap (word_of mapH tmap na_v) na_v [] default_opts.
Proof. apply (plain_call _ 10); vm_compute; reflexivity. Qed.
Lemma na_out : marshal_returns mapH (mem_of mapH tmap na_v) (Some (tmap, word_of mapH tmap na_v)) [] (MOk (bs "{""~n"":1,""a"":2}")).
Proof. exists 12%nat; split; [vm_compute; reflexivity | discriminate]. Qed.
Example C23_exact_ordered : exists es' kvs, Permutation na_es es' /\ Forall2 (entry_bytes mapH plainV default_opts TString (TInt KInt)) es' kvs /\
  infix (123 :: join_members kvs ++ [125]) (bs "{""~n"":1,""a"":2}") /\ StronglySorted (fun a b => lexle (raw_key a) (raw_key b)) es'.
Proof.
  destruct (C23_exact mapH plainV _ _ _ _ _ _ _ tmap false false TString (TInt KInt) na_es map_ok (constH_sort _ _ _) na_call na_out eq_refl (inner_refl _ _ _) (conj eq_refl eq_refl) eq_refl eq_refl)
    as (es' & kvs & A & B & D & E).
  - intros k x [[= <- <-]|[[= <- <-]|[]]].
    + exists [97], [97]. split; [reflexivity|]. split; [apply bytes_okb_ok; reflexivity | apply (us_cons 97 [] []); [left; lia | constructor]].
    + exists [10], [10]. split; [reflexivity|]. split; [apply bytes_okb_ok; reflexivity | apply (us_cons 10 [] []); [left; lia | constructor]].
  - exists es', kvs. split; [exact A|]. split; [exact B|]. split; [exact D|]. apply E. intros a b [<- | [<- | []]] [<- | [<- | []]] L N; cbn in L, N; try congruence; [inversion L; lia|].
    vm_compute. apply ll_lt. lia.
Qed.

(** map[time.Duration]int{1s: 2} in both formats, and a time key with UnixTime. *)
Example C25_exact_string : Forall (fun kv => is_name kv <-> o_durationFmt dur_o <> DurationString) [(lit """""1s""""", lit "2")].
Proof.
  eapply (C25_exact mapH plainV _ _ _ _ dur_opts dur_o _ dur_t false false TDuration (TInt KInt)); [exact map_ok | exact ex_shortest | apply constH_sort | split; vm_compute; reflexivity | exact dur_call | exact dur_out | apply inner_refl
    | split; reflexivity | reflexivity | exact dur_entry | reflexivity | reflexivity].
Qed.
Example C25_exact_unix : Forall (fun kv => is_name kv <-> has (o_flags unix_o) unixTime = false) [(lit "1", lit "2")].
Proof.
  eapply (C25_exact timeH timeV _ _ _ _ unix_opts unix_o _ unix_t false false TTime (TInt KInt)); [exact time_ok | exact ex_shortest | apply constH_sort | split; vm_compute; reflexivity | exact unix_call | exact unix_out | apply inner_refl
    | split; reflexivity | reflexivity | exact unix_entry | reflexivity | reflexivity|].
  intros g x _. left. vm_compute. reflexivity.
Qed.

(** ** C08: json.RawMessage *)
(** A json.RawMessage is never rejected: the claim holds of it if and only if
    the message is JSON or not to be compacted. *)
Theorem C08_exact H vcall m w vs b opts o : host_ok H vcall -> holds H m TRawMessage w (VSlice vs) -> vbytes vs = Some b -> call_opts opts = Some o ->
  (exists out, forall r, marshal_returns H m (Some (TRawMessage, w)) opts r <-> r = MOk out) /\
  ((has (o_flags o) noCompact = false -> (forall j, ~ json_text true j b) -> exists e, marshal_returns H m (Some (TRawMessage, w)) opts (MErr e)) <->
   has (o_flags o) noCompact = true \/ exists j, json_text true j b).
Proof.
  intros OK Hr Hv Ho.
  assert (X : exists out, encodes H vcall o TRawMessage (VSlice vs) out None).
  { destruct (has (o_flags o) noCompact) eqn:En.
    - exists b. apply encodes_native; [exact OK | reflexivity | discriminate | exact I|]. intros rec n. cbn [vnative]. rewrite Hv. cbn [encode_raw_message]. rewrite En. reflexivity.
    - eexists. apply encodes_native; [exact OK | reflexivity | discriminate | exact I|]. intros rec n. cbn [vnative]. rewrite Hv. cbn [encode_raw_message]. rewrite En. reflexivity. }
  destruct X as [out X]. assert (A : forall r, marshal_returns H m (Some (TRawMessage, w)) opts r <-> r = MOk out) by (intros r; apply (marshal_iff H vcall OK m _ w _ opts o out None r Hr Ho X)).
  split; [exists out; exact A|]. destruct (holds_repr H vcall OK m _ w _ Hr) as [l Hl]. assert (Hb : bytes_ok b) by (apply (vbytes_ok H m l TRawMessage (TInt KUint8) vs b); auto).
  split.
  - intros D. destruct (has (o_flags o) noCompact); [left; reflexivity|]. right. destruct (json_valid b) eqn:Ev; [apply json_valid_correct; assumption|].
    exfalso. destruct D as [e D]; [reflexivity | intros j J; assert (V : json_valid b = true) by (apply json_valid_correct; eauto); congruence|]. apply A in D. discriminate.
  - intros [D|(j & D)] N V; [congruence | destruct (V j D)].
Qed.

(** json.RawMessage("{"). *)
Example C08_exact_brace : ~ (has (o_flags default_opts) noCompact = false -> (forall j, ~ json_text true j [123]) -> exists e, marshal_returns exH (bytes_mem [123]) (Some (TRawMessage, 100)) [] (MErr e)).
Proof.
  assert (Hb : bytes_ok [123]) by (repeat constructor; unfold is_byte; lia).
  intros X. apply (C08_exact exH ex_vcall (bytes_mem [123]) 100 _ [123] [] default_opts ex_ok (raw_holds _ Hb) (vbytes_map _) eq_refl) in X. destruct X as [X|X]; [discriminate|].
  apply json_valid_correct in X; [|exact Hb]. vm_compute in X. discriminate.
Qed.

Print Assumptions C08_exact.
Print Assumptions C23_exact.
Print Assumptions C25_exact.
