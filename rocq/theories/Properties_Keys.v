(** C56 and C25: maps whose keys are not written as strings. *)
From Verif Require Import Base Utf8 JsonSpec JsonParse OptionsModel EscapeModel EscapeProof IntModel IntProof CalendarSpec TypesModel TypesFacts TimeModel LeafModel LeafProof
  MemModel FieldsModel FieldsProof InstrModel ExecModel ValueModel ExecMono ExecLeaf ExecProof HostFacts VencFacts MarshalThm DocSpec EntriesFacts ApiFacts CallFacts ShapeThm
  ExampleHost ExampleVals ExampleConst ExampleRead Properties_Strings Properties_Api Properties_Maps Properties_Time Properties_Order Properties_Members.

Section Short.
  Variable H : host.
  Variable vcall : mkind -> typ -> val -> option Z -> bytes + Z.
  Hypothesis OK : host_ok H vcall.
  Variable o : encOpts.
  Variable m : mem.

  Lemma key_runs k kt ki kv ka kb : typ_ok (h_letter H) (h_udigit H) kt -> (if isString (h_env H) kt then Some IString else compile H k kt false false) = Some ki ->
    repr H m (LMem ka) kt kv -> key_bytes H vcall o kt false kv kb -> runs (VRet kb None) (fun N => exec H o m N (key_wrap H kt ki) (LMem ka)).
  Proof.
    intros Tk Eki W1 Hk. unfold key_wrap. destruct Hk as [(Es & s & -> & ->)|[(Es & _ & Et & Ep & -> & ->)|(Es & Hn & b & [n Hb] & ->)]]; rewrite Es in *; cbn [negb andb quote_if].
    - injection Eki as <-. assert (P : is_ptr H kt = false) by (unfold isString in Es; unfold is_ptr; destruct (under (h_env H) kt); auto; discriminate). rewrite P, Bool.andb_false_r.
      destruct (inv_str _ _ _ _ _ W1) as (_ & V1 & V2). intros dst. exists 1%nat. intros [|N] L; [lia|]. cbn [exec]. rewrite V1. cbn [onSome]. rewrite encode_string_app by exact V2. reflexivity.
    - rewrite Et, Ep. cbn [negb andb quote_if].
      assert (Nil : is_nil m (LMem ka) = Some true).
      { change true with (vnil VNil). eapply is_nil_spec; eauto. unfold is_ptr in Ep. unfold isNilable. destruct (under (h_env H) kt); try discriminate; reflexivity. }
      intros dst. exists 1%nat. intros [|N] L; [lia|]. cbn [exec]. rewrite Nil. reflexivity.
    - specialize (Hn eq_refl).
      assert (R := good_all H vcall OK o m n k kt false false kv (LMem ka) ki Tk W1 ltac:(intros _ C; discriminate) Eki). cbn in Hb. rewrite Hb in R.
      destruct (h_impl H kt MText) eqn:Et; cbn [negb andb quote_if] in *.
      + destruct (is_ptr H kt) eqn:Ep; [|exact R]. cbn [andb] in Hn.
        assert (Nil : is_nil m (LMem ka) = Some false).
        { rewrite <- Hn. eapply is_nil_spec; eauto. unfold is_ptr in Ep. unfold isNilable. destruct (under (h_env H) kt); try discriminate; reflexivity. }
        eapply runs_step; [exact R|]. intros dst N. cbn [exec]. rewrite Nil. reflexivity.
      + apply (runs_quoted H o m (VRet b None)). exact R.
  Qed.

  (** The keys up to the first short one are encoded, then the slice
      expression of encode.go:447 is out of range. *)
  Lemma fill_short {X} (mk : nat -> X -> entry) (xs : list X) (kvs : list member) :
    Forall2 (fun x kv => runs (VRet (fst kv) None) (fun N => fst (mk N x)) /\ runs (VRet (snd kv) None) (fun N => snd (mk N x))) xs kvs ->
    Exists (fun kv : member => (length (fst kv) < 2)%nat) kvs ->
    forall acc buf, exists N, forall N', (N <= N')%nat -> fill (map (mk N') xs) buf acc = FCrash.
  Proof.
    intros F. induction F as [|x [kb vb] xs kvs [K V] F IH]; intros He acc buf; [inversion He|]. cbn [fst snd] in K, V. cbn [map].
    destruct (K buf) as [N1 H1]. destruct (V ((buf ++ kb) ++ [58])) as [N2 H2].
    destruct (Nat.ltb_spec (length kb) 2) as [Ls|Ls].
    - exists N1. intros N' L. specialize (H1 N' L). destruct (mk N' x) as [f1 f2]. cbn [fst snd fill] in *. rewrite H1.
      replace (length (buf ++ kb) <? length buf + 2)%nat with true by (rewrite app_length; lia). reflexivity.
    - assert (He' : Exists (fun kv : member => (length (fst kv) < 2)%nat) kvs) by (inversion He as [? ? Hx|]; subst; [cbn [fst] in Hx; lia | assumption]).
      destruct (IH He' (acc ++ [(firstn (length (buf ++ kb) - 2 - length buf) (skipn (length buf + 1) (buf ++ kb)), skipn (length buf) (((buf ++ kb) ++ [58]) ++ vb))]) (((buf ++ kb) ++ [58]) ++ vb)) as [N3 H3].
      exists (Nat.max N1 (Nat.max N2 N3)). intros N' L. specialize (H1 N' ltac:(lia)). specialize (H2 N' ltac:(lia)). specialize (H3 N' ltac:(lia)).
      destruct (mk N' x) as [f1 f2]. cbn [fst snd fill] in *. rewrite H1.
      replace (length (buf ++ kb) <? length buf + 2)%nat with false by (rewrite app_length; lia). rewrite H2. exact H3.
  Qed.
End Short.

(** All keys and values are encoded: Marshal panics exactly when the map is
    sorted and the text of some key is shorter than two bytes. *)
Theorem C56_keys_exact H vcall m t w es kvs opts o kt et : host_ok H vcall -> DocSpec.plain H t false -> under (h_env H) t = TMap kt et -> key_ok H kt = true ->
  holds H m t w (VMap es) -> call_opts opts = Some o -> Forall2 (entry_bytes H vcall o kt et) es kvs ->
  (has (o_flags o) unsortedMap = false -> Exists (fun kv : member => (length (fst kv) < 2)%nat) kvs -> forall r, marshal_returns H m (Some (t, w)) opts r <-> r = MCrash) /\
  (has (o_flags o) unsortedMap = true \/ Forall (fun kv : member => (2 <= length (fst kv))%nat) kvs -> exists out, forall r, marshal_returns H m (Some (t, w)) opts r <-> r = MOk out).
Proof.
  intros OK [P1 P2] U K Hh Ho F.
  assert (NP : is_ptr H t = false) by (unfold is_ptr; rewrite U; reflexivity).
  assert (Hh' := Hh). inversion Hh' as [|td w0 v Ht Hi Hd Hn]; subst.
  assert (D : direct H t) by (eapply d_map; exact U). specialize (Hd D). clear Hn.
  destruct (inv_map H m _ _ _ Hd) as (k0 & e0 & a & addrs & Q1 & Q2 & Q3 & Q4 & Q5 & Q6). rewrite U in Q1. injection Q1 as <- <-.
  assert (Tk : typ_ok (h_letter H) (h_udigit H) kt /\ typ_ok (h_letter H) (h_udigit H) et). { assert (G := under_ok H (ok_wf _ _ OK) t Ht). rewrite U in G. exact G. }
  destruct Tk as [Tk Te].
  destruct (ok_compile _ _ OK t false false Ht) as (k & i & Hc). destruct k as [|k]; [discriminate|]. assert (Hc' := Hc). cbn [compile] in Hc.
  rewrite native_go in P1. destruct (go_type_instr t) as [gi|] eqn:Eg; [discriminate|]. rewrite marshaler_pick, P2 in Hc. cbn [option_map] in Hc.
  unfold basic_instr in Hc. rewrite U, K in Hc. cbn [negb] in Hc.
  destruct (if isString (h_env H) kt then Some IString else compile H k kt false false) as [ki|] eqn:Eki; [|discriminate].
  destruct (compile H k et false false) as [vi|] eqn:Evi; [|discriminate]. injection Hc as <-.
  set (mk := fun N (x : Z * Z) => (exec H o m N (key_wrap H kt ki) (LMem (fst x)), exec H o m N vi (LMem (snd x)))).
  assert (R : Forall2 (fun x kv => runs (VRet (fst kv) None) (fun N => fst (mk N x)) /\ runs (VRet (snd kv) None) (fun N => snd (mk N x))) addrs kvs).
  { assert (L : length addrs = length kvs) by (rewrite Q5; clear - F; induction F; cbn [length]; congruence). clear - OK F Q5 Q6 Eki Evi Tk Te.
    revert addrs Q5 Q6. induction F as [|[kv vv] [kb vb] es kvs [A B] F IH]; intros [|[ka va] addrs] Q5 Q6; try discriminate; constructor.
    - destruct (Q6 0%nat ka va kv vv eq_refl eq_refl) as [W1 W2]. cbn [fst snd] in *. split; [eapply key_runs; eauto|].
      destruct B as [n B]. assert (X := good_all H vcall OK o m n k et false false vv (LMem va) vi Te W2 ltac:(intros _ C; discriminate) Evi). cbn in B. rewrite B in X. exact X.
    - apply IH; [injection Q5 as Q5; exact Q5|]. intros i. apply (Q6 (S i)). }
  assert (G : forall r, (exists N, forall N', (N <= N')%nat -> (if (length addrs =? 0)%nat then Ret [123; 125] None else exec_entries H o (map (mk N') addrs) [123]) = r) ->
    r <> OutOfFuel -> forall q, marshal_returns H m (Some (t, w)) opts q <-> q = match r with Ret b None => MOk b | Ret _ (Some e) => MErr e | Crash => MCrash | OutOfFuel => MFuel end).
  { intros r [N HN] Hf q. assert (A : marshal_returns H m (Some (t, w)) opts (match r with Ret b None => MOk b | Ret _ (Some e) => MErr e | Crash => MCrash | OutOfFuel => MFuel end)).
    { exists (S (S (k + N))). unfold MarshalOpts. rewrite (check_opts_ok _ _ Ho). unfold marshal_json, append_json, cached_instr. cbn [fst snd]. rewrite NP.
      rewrite (compile_mono H _ (S (S (k + N))) _ _ _ _ Hc') by lia. cbn [isInlined]. rewrite U. cbn [exec]. unfold rd_word. rewrite Q2. replace (a =? 0) with false by lia. rewrite Q4.
      specialize (HN (k + N)%nat ltac:(lia)). cbn [app]. unfold kvlocs. fold mk. change (fun kv : Z * Z => (exec H o m (k + N) (key_wrap H kt ki) (LMem (fst kv)), exec H o m (k + N) vi (LMem (snd kv)))) with (mk (k + N)%nat).
      rewrite HN. split; [reflexivity|]. destruct r as [b [e|]| |]; try discriminate. congruence. }
    split; [intros B; eapply marshal_returns_det; eauto | intros ->; exact A]. }
  assert (L : length addrs = length kvs) by (rewrite Q5; clear - F; induction F; cbn [length]; congruence).
  split.
  - intros Hu He r. rewrite (G Crash); [reflexivity | | discriminate].
    replace (length addrs =? 0)%nat with false by (rewrite L; destruct He; reflexivity).
    destruct (fill_short mk addrs kvs R He [] []) as [N HN]. exists N. intros N' L'. unfold exec_entries. rewrite Hu. unfold exec_sorted. rewrite HN by exact L'. reflexivity.
  - intros Hs. destruct (length addrs =? 0)%nat eqn:E0.
    + exists [123; 125]. apply (G (Ret [123; 125] None)); [exists 0%nat; reflexivity | discriminate].
    + set (mk2 := fun N (x : (Z * Z) * member) => mk N (fst x)).
      set (vr := fun x : (Z * Z) * member => (VRet (fst (snd x)) None, VRet (snd (snd x)) None)).
      assert (X := ventries_runs H o mk2 vr (combine addrs kvs)).
      assert (Q : exists out, ventries H o (map vr (combine addrs kvs)) = VRet out None).
      { unfold ventries. assert (F2 : Forall2 gives (map vr (combine addrs kvs)) kvs) by (clear - R; induction R as [|y kv efs kvs _ V IH]; cbn [combine map]; [constructor | constructor; [split; reflexivity | exact IH]]).
        destruct Hs as [Hs|F3].
        - rewrite Hs. eexists. erewrite (proj2 (vunsorted_ret _ _ _ _)); [|exists kvs; split; [exact F2 | reflexivity]]. reflexivity.
        - destruct (has (o_flags o) unsortedMap).
          + eexists. erewrite (proj2 (vunsorted_ret _ _ _ _)); [|exists kvs; split; [exact F2 | reflexivity]]. reflexivity.
          + unfold vsorted. eexists. erewrite (proj2 (vfill_ret _ _ _)); [|exists kvs; split; [exact F2 | split; [exact F3 | reflexivity]]]. reflexivity. }
      destruct Q as [out Q]. exists out. rewrite Q in X.
      assert (X' : forall x, In x (combine addrs kvs) -> runs (fst (vr x)) (fun N => fst (mk2 N x)) /\ runs (snd (vr x)) (fun N => snd (mk2 N x))).
      { subst mk2 vr. clear - R. intros [y kv] X. revert X. induction R as [|y' kv' efs kvs A V IH]; cbn [combine]; [intros []|]. intros [E|X]; [injection E as -> ->; destruct A as (A & B); split; assumption | apply IH; exact X]. }
      destruct (X X' []) as [N HN].
      apply (G (Ret out None)); [|discriminate]. exists N. intros N' L'. etransitivity; [|exact (HN N' L')]. cbn [app]. f_equal. unfold mk2.
      rewrite (combine_fst_map (mk N')); [reflexivity | exact L].
Qed.

(** ** Times as numbers *)
Lemma int_short n : (length (append_int [] n) < 2)%nat <-> 0 <= n <= 9.
Proof.
  destruct (append_int_spec [] n) as (s & -> & L). cbn [app].
  assert (J : forall ds, jint ds -> (length ds < 2)%nat -> exists c, ds = [c] /\ 48 <= c <= 57).
  { intros ds [|d ds' D F] Hl; [exists 48; split; [reflexivity | lia]|]. destruct ds'; [exists d; split; [reflexivity | lia] | cbn [length] in Hl; lia]. }
  inversion L as [|ds Hd Hn|ds Hd Hn]; subst.
  - cbn [length]. lia.
  - split.
    + intros Hl. destruct (J s Hd Hl) as (c & -> & Hc). unfold dval. cbn [fold_left]. lia.
    + intros Hb. inversion Hd as [|d ds D F]; subst; [cbn [length]; lia|]. rewrite dval_cons in Hb. assert (B := dval_bound ds F). cbn [length]. destruct (length ds) as [|k]; [lia|]. exfalso.
      assert (Q : 10 ^ 1 <= 10 ^ Z.of_nat (S k)) by (apply Z.pow_le_mono_r; lia). change (10 ^ 1) with 10 in Q. nia.
  - assert (P := jint_pos_val ds Hd Hn). cbn [length]. split; [|lia]. intros Hl. inversion Hd; subst; cbn [length] in Hl; lia.
Qed.

(** A sorted map whose keys are times, written as numbers: Marshal panics
    exactly when one of them is one of the ten seconds from 1970-01-01T00:00:00Z. *)
Theorem C56_time_keys_exact H vcall m t w es opts o et : host_ok H vcall -> DocSpec.plain H t false -> under (h_env H) t = TMap TTime et -> h_impl H TTime MText = true ->
  holds H m t w (VMap es) -> call_opts opts = Some o -> has (o_flags o) unixTime = true -> has (o_flags o) unsortedMap = false ->
  (forall k x, In (k, x) es -> (exists g y, k = VTime g /\ local_year g y /\ 0 <= y <= 9999) /\ exists b, bytes_of H vcall o (et, false, false, x) b) ->
  ((exists g x, In (VTime g, x) es /\ 0 <= t_unix g <= 9) -> forall r, marshal_returns H m (Some (t, w)) opts r <-> r = MCrash) /\
  ((forall g x, In (VTime g, x) es -> t_unix g < 0 \/ 9 < t_unix g) -> exists out, forall r, marshal_returns H m (Some (t, w)) opts r <-> r = MOk out).
Proof.
  intros OK P U I Hh Ho Hu Hs He.
  assert (F : exists kvs, Forall2 (fun e kv => entry_bytes H vcall o TTime et e kv /\ exists g, fst e = VTime g /\ fst kv = append_int [] (t_unix g)) es kvs).
  { clear - He Hu I. induction es as [|[k x] es IH]; [exists []; constructor|]. destruct IH as [kvs F]; [intros; apply He; right; assumption|].
    destruct (He k x (or_introl eq_refl)) as ((g & y & -> & Hy & Hb) & b & B). exists ((append_int [] (t_unix g), b) :: kvs). constructor; [|exact F]. split; [|exists g; split; reflexivity]. split; [|exact B].
    right. right. split; [reflexivity|]. split; [intros _; rewrite Bool.andb_false_r; reflexivity|]. exists (append_int [] (t_unix g)). split; [|cbn [fst]; rewrite I; reflexivity].
    exists 1%nat. cbn [fst]. cbn [venc native vnative]. apply local_year_iff in Hy. unfold encode_time. replace ((time_year g <? 0) || (10000 <=? time_year g)) with false by lia. rewrite Hu. reflexivity. }
  destruct F as [kvs F].
  assert (F1 : Forall2 (entry_bytes H vcall o TTime et) es kvs) by (clear - F; induction F as [|? ? ? ? [A _] _ IH]; constructor; assumption).
  destruct (C56_keys_exact H vcall m t w es kvs opts o TTime et OK P U ltac:(unfold key_ok; rewrite I, !Bool.orb_true_r; reflexivity) Hh Ho F1) as [A B]. split.
  - intros (g & x & Hin & Hg). apply A; [exact Hs|]. clear - F Hin Hg. induction F as [|[k x'] kv es kvs [_ (g' & E1 & E2)] F IH]; [destruct Hin|]. destruct Hin as [E|Hin]; [|right; apply IH, Hin].
    injection E as -> ->. cbn [fst] in E1. injection E1 as <-. apply Exists_cons_hd. unfold bytes in E2. cbn beta. unfold bytes. rewrite E2. apply int_short, Hg.
  - intros Hn. apply B. right. clear - F Hn. induction F as [|[k x'] kv es kvs [_ (g' & E1 & E2)] F IH]; constructor; [|apply IH; intros g x Hin; eapply Hn; right; exact Hin].
    cbn [fst] in E1. subst k. unfold bytes in *. rewrite E2. specialize (Hn g' x' (or_introl eq_refl)). destruct (int_short (t_unix g')) as [X _]. lia.
Qed.

(** map[time.Time]int{time.Unix(1, 0): 2} with UnixTime *)
Definition short_opts : list (option option_) := [Some OUnixTime].
Definition short_o : encOpts := match call_opts short_opts with Some o => o | None => default_opts end.
Definition short_es : list (val * val) := [(VTime (mkTime 1 0 0), VInt 2)].
Lemma short_holds : holds timeH (mem_of timeH unix_t unix_v) unix_t (word_of timeH unix_t unix_v) unix_v.
Proof. apply (holdsb_ok timeH declb declb_ok _ 10). vm_compute. reflexivity. Qed.
Lemma short_panics : forall r, marshal_returns timeH (mem_of timeH unix_t unix_v) (Some (unix_t, word_of timeH unix_t unix_v)) short_opts r <-> r = MCrash.
Proof.
  apply (C56_time_keys_exact timeH timeV _ unix_t _ short_es short_opts short_o (TInt KInt) time_ok (conj eq_refl eq_refl) eq_refl eq_refl short_holds eq_refl eq_refl eq_refl).
  - intros k x [E|[]]. injection E as <- <-. split; [exists (mkTime 1 0 0), 1970; split; [reflexivity|]; split; [apply local_year_iff; reflexivity | lia] | exists (lit "2"), 3%nat; vm_compute; reflexivity].
  - exists (mkTime 1 0 0), (VInt 2). split; [left; reflexivity | cbn [t_unix]; lia].
Qed.

Definition ten_v : val := VMap [(VTime (mkTime 10 0 0), VInt 2); (VTime (mkTime (-1) 0 0), VInt 3)].
Lemma ten_holds : holds timeH (mem_of timeH unix_t ten_v) unix_t (word_of timeH unix_t ten_v) ten_v.
Proof. apply (holdsb_ok timeH declb declb_ok _ 10). vm_compute. reflexivity. Qed.
Example C56_ten : exists out, forall r, marshal_returns timeH (mem_of timeH unix_t ten_v) (Some (unix_t, word_of timeH unix_t ten_v)) short_opts r <-> r = MOk out.
Proof.
  apply (C56_time_keys_exact timeH timeV _ unix_t _ [(VTime (mkTime 10 0 0), VInt 2); (VTime (mkTime (-1) 0 0), VInt 3)] short_opts short_o (TInt KInt) time_ok (conj eq_refl eq_refl) eq_refl eq_refl ten_holds eq_refl eq_refl eq_refl).
  - intros k x [E|[E|[]]]; injection E as <- <-; (split; [eexists; eexists; split; [reflexivity|]; split; [apply local_year_iff; reflexivity | vm_compute; split; discriminate]|]);
      [exists (lit "2") | exists (lit "3")]; exists 3%nat; vm_compute; reflexivity.
  - intros g x [E|[E|[]]]; injection E as <- <-; cbn [t_unix]; lia.
Qed.

(** The full statement: a map whose keys and values can be encoded is encoded. *)
Definition maps_encoded H vcall : Prop :=
  forall m t w es kvs opts o kt et, DocSpec.plain H t false -> under (h_env H) t = TMap kt et -> key_ok H kt = true ->
    holds H m t w (VMap es) -> call_opts opts = Some o -> Forall2 (entry_bytes H vcall o kt et) es kvs -> exists out, marshal_returns H m (Some (t, w)) opts (MOk out).

(** It holds for string keys, for integer keys, and for keys that only have the
    MarshalText method, with any options. *)
Theorem C56_maps_partial H vcall m t w es kvs opts o kt et : host_ok H vcall -> DocSpec.plain H t false -> under (h_env H) t = TMap kt et ->
  isString (h_env H) kt = true \/ (isInteger (h_env H) kt = true /\ h_impl H kt MText = false) \/ (native kt = false /\ method_of H kt false = Some (MText, false)) ->
  holds H m t w (VMap es) -> call_opts opts = Some o -> Forall2 (entry_bytes H vcall o kt et) es kvs -> exists out, forall r, marshal_returns H m (Some (t, w)) opts r <-> r = MOk out.
Proof.
  intros OK P U Hk Hh Ho F.
  assert (Tx : method_of H kt false = Some (MText, false) -> h_impl H kt MText = true).
  { unfold method_of. cbn [pick]. rewrite !Bool.andb_false_r. cbn [andb]. destruct (h_impl H kt MCtx), (h_impl H kt MApp), (h_impl H kt MJson), (h_impl H kt MText); congruence. }
  assert (K : key_ok H kt = true) by (unfold key_ok; destruct Hk as [-> | [[-> _] | [_ Hm]]]; [reflexivity | rewrite Bool.orb_true_r; reflexivity | rewrite (Tx Hm), Bool.orb_true_r; reflexivity]).
  destruct (C56_keys_exact H vcall m t w es kvs opts o kt et OK P U K Hh Ho F) as [_ B]. apply B. right. clear B.
  inversion Hh as [|td w0 v Ht Hi Hd Hn]; subst. assert (D : direct H t) by (eapply d_map; exact U). specialize (Hd D). clear Hn.
  destruct (inv_map H m _ _ _ Hd) as (k0 & e0 & a & addrs & Q1 & _ & _ & _ & Q5 & Q6). rewrite U in Q1. injection Q1 as <- <-.
  revert addrs Q5 Q6. clear Hh Hd. induction F as [|[kv vv] [kb vb] es kvs [A _] F IH]; intros [|[ka va] addrs] Q5 Q6; try discriminate; constructor.
  - destruct (Q6 0%nat ka va kv vv eq_refl eq_refl) as [W1 _]. cbn [fst snd] in *.
    destruct A as [(Es & s & -> & ->)|[(_ & _ & _ & _ & _ & ->)|(Es & Hn & b & [n Hb] & ->)]].
    + destruct (inv_str _ _ _ _ _ W1) as (_ & _ & V). rewrite encode_string_body by exact V. cbn [length]. rewrite app_length. cbn [length]. lia.
    + cbn [length]. lia.
    + destruct Hk as [X | [[_ ->] | [Nk Hm]]]; [congruence | cbn [length]; rewrite app_length; cbn [length]; lia|]. rewrite (Tx Hm).
      destruct n as [|n]; [discriminate|]. cbn [fst snd venc] in Hb. rewrite Nk, Hm in Hb.
      assert (V : forall td x, vmethod vcall o MText kt td x = VRet b None -> (2 <= length b)%nat).
      { intros td x. unfold vmethod, encode_text_result. destruct (vcall MText td x None) as [c|e]; cbn [lift app]; [|discriminate]. intros E. injection E as <-. cbn [length]. rewrite app_length. cbn [length]. lia. }
      unfold vmarshaler in Hb. destruct (under (h_env H) kt); try (destruct (is_direct H n kt) as [[|]|]; try discriminate; eapply V; exact Hb);
        (destruct kv; try discriminate; [injection Hb as <-; cbn; lia | eapply V; exact Hb]).
  - apply IH with addrs; [injection Q5 as Q5; exact Q5|]. intros i. apply (Q6 (S i)).
Qed.

Theorem C56_maps_refuted : host_ok timeH timeV /\ ~ maps_encoded timeH timeV.
Proof.
  split; [exact time_ok|]. intros S.
  destruct (S (mem_of timeH unix_t unix_v) unix_t (word_of timeH unix_t unix_v) short_es [(lit "1", lit "2")] short_opts short_o TTime (TInt KInt)) as [out R];
    [split; reflexivity | reflexivity | reflexivity | exact short_holds | reflexivity | | apply short_panics in R; discriminate].
  constructor; [|constructor]. split; [|exists 3%nat; vm_compute; reflexivity]. right. right. split; [reflexivity|]. split; [reflexivity|]. exists (lit "1").
  split; [exists 3%nat; vm_compute; reflexivity | reflexivity].
Qed.

(** map[int]int{7: 2} is encoded although the digits of its key are one byte. *)
Definition seven_t : typ := TMap (TInt KInt) (TInt KInt).
Definition seven_v : val := VMap [(VInt 7, VInt 2)].
Lemma seven_holds : holds mapH (mem_of mapH seven_t seven_v) seven_t (word_of mapH seven_t seven_v) seven_v.
Proof. apply (holdsb_ok mapH declb declb_ok _ 10). vm_compute. reflexivity. Qed.
Example C56_seven : exists out, forall r, marshal_returns mapH (mem_of mapH seven_t seven_v) (Some (seven_t, word_of mapH seven_t seven_v)) [] r <-> r = MOk out.
Proof.
  apply (C56_maps_partial mapH plainV _ seven_t _ [(VInt 7, VInt 2)] [(lit """7""", lit "2")] [] default_opts (TInt KInt) (TInt KInt) map_ok (conj eq_refl eq_refl) eq_refl (or_intror (or_introl (conj eq_refl eq_refl))) seven_holds eq_refl).
  constructor; [|constructor]. split; [|exists 3%nat; vm_compute; reflexivity]. right. right. split; [reflexivity|]. split; [reflexivity|]. exists (lit "7").
  split; [exists 3%nat; vm_compute; reflexivity | reflexivity].
Qed.

(** ** C25: keys with methods *)
(** The name of a key written by MarshalText is a JSON string if and only if
    the key is not a nil interface and the text, which is copied, has nothing to
    escape that is not escaped already. *)
Theorem C25_text_exact H vcall o kt et es kvs : isString (h_env H) kt = false -> native kt = false -> method_of H kt false = Some (MText, false) ->
  Forall2 (entry_bytes H vcall o kt et) es kvs ->
  Forall2 (fun e kv => is_name kv <-> (is_iface H kt = true -> fst e <> VNil) /\
    forall td w b, receiver H kt false (fst e) td w -> vcall MText td w None = inl b -> exists us, jchars true us b) es kvs.
Proof.
  intros S N M F.
  assert (Tx : h_impl H kt MText = true).
  { revert M. unfold method_of. cbn [pick]. rewrite !Bool.andb_false_r. cbn [andb]. destruct (h_impl H kt MCtx), (h_impl H kt MApp), (h_impl H kt MJson), (h_impl H kt MText); congruence. }
  assert (Q : forall b, is_name (34 :: b ++ [34], []) <-> exists us, jchars true us b).
  { intros b. unfold is_name. cbn [fst]. split; [|intros [us J]; exists us; constructor; exact J]. intros J. destruct (name_inv _ J) as (us & s & E & C).
    injection E as E. apply app_inj_tail in E. destruct E as [-> _]. exists us. exact C. }
  induction F as [|[k x] [kb vb] es kvs [A _] F IH]; constructor; [|exact IH]. clear IH F. cbn [fst snd] in *.
  assert (G : forall td w b, (forall td' w', receiver H kt false k td' w' -> td' = td /\ w' = w) -> receiver H kt false k td w -> vmethod vcall o MText kt td w = VRet b None -> k <> VNil \/ is_iface H kt = false ->
    (is_name (b, vb) <-> (is_iface H kt = true -> k <> VNil) /\ forall td w b, receiver H kt false k td w -> vcall MText td w None = inl b -> exists us, jchars true us b)).
  { intros td w b Un Rc. unfold vmethod, encode_text_result. destruct (vcall MText td w None) as [c|e] eqn:Ec; cbn [lift app]; [|discriminate]. intros E. injection E as <-. intros Nv.
    rewrite (Q c). split.
    - intros J. split; [intros I; destruct Nv; congruence|]. intros td' w' b' R' C'. destruct (Un td' w' R') as [-> ->]. rewrite Ec in C'. injection C' as <-. exact J.
    - intros [_ J]. exact (J td w c Rc Ec). }
  unfold is_name in *. cbn [fst] in *.
  destruct A as [(X & _)|[(_ & _ & _ & Ip & -> & ->)|(_ & Hn & b & [n Hb] & ->)]]; [congruence| |].
  - assert (If : is_iface H kt = false) by (revert Ip; unfold is_ptr, is_iface; destruct (under (h_env H) kt); congruence). split.
    + intros _. split; [congruence|]. intros td w b R _. exfalso. inversion R as [|? ? ? ? U1|? ? If1 Np]; subst; exact (Np Ip eq_refl).
    + intros _. exists []. apply (j_str no_ws true [] []). constructor.
  - rewrite Tx in *. specialize (Hn eq_refl). destruct n as [|n]; [discriminate|]. cbn [fst snd venc] in Hb. rewrite N, M in Hb. unfold vmarshaler in Hb.
    assert (Val : is_iface H kt = false -> (is_ptr H kt = true -> k <> VNil) -> vmethod vcall o MText kt kt k = VRet b None ->
      ((exists us, json no_ws true (JStr us) b) <-> (is_iface H kt = true -> k <> VNil) /\ forall td w b, receiver H kt false k td w -> vcall MText td w None = inl b -> exists us, jchars true us b)).
    { intros If Np V. apply (G kt k b); [|apply rc_val; assumption | exact V | right; exact If]. intros td w R. inversion R as [|? ? ? ? U1|? ? If1 Np1]; subst; [unfold is_iface in If; rewrite U1 in If; discriminate | auto]. }
    destruct (is_iface H kt) eqn:If.
    + unfold is_iface in If. destruct (under (h_env H) kt) as [ |ik|fb| | | | | |ms|e|e|an e|k1 e1|fs|nn| | | | | ] eqn:Uk; try discriminate. destruct k; try discriminate.
      * injection Hb as <-. split; [intros [us J]; inversion J | intros [C _]; exfalso; apply C; reflexivity].
      * apply (G t k b); [|eapply rc_dyn; exact Uk | exact Hb | left; discriminate]. intros td w R. inversion R as [|? ? ? ? U'|? ? If']; subst; [auto | unfold is_iface in If'; rewrite Uk in If'; discriminate].
    + apply Val; [reflexivity | |].
      * intros Ip. rewrite Ip in Hn. intros ->. discriminate.
      * unfold is_iface in If. destruct (under (h_env H) kt) as [ |ik|fb| | | | | |ms|e|e|an e|k1 e1|fs|nn| | | | | ] eqn:Uk; try discriminate;
          try (destruct (is_direct H n kt) as [[|]|]; try discriminate; exact Hb).
        unfold is_ptr in Hn. rewrite Uk in Hn. destruct k; try discriminate. exact Hb.
Qed.

(** map[encoding.TextMarshaler]int{nil: 1} *)
Definition nilkey_impl (t : typ) (k : mkind) : bool := match t, k with TIface (Some 0%nat), MText => true | _, _ => false end.
Definition nilkeyH : host := constH [] nilkey_impl null_result.
Lemma nilkey_ok : host_ok nilkeyH timeV.
Proof. apply constH_ok; [vm_compute; reflexivity|]. intros k td ctx b [= <-]. apply bytes_okb_ok. reflexivity. Qed.
Definition nilkey_t : typ := TMap (TIface (Some 0%nat)) (TInt KInt).
Definition nilkey_v : val := VMap [(VNil, VInt 1)].
Lemma nilkey_call : call nilkeyH (mem_of nilkeyH nilkey_t nilkey_v) nilkey_t (word_of nilkeyH nilkey_t nilkey_v) nilkey_v [] default_opts.
Proof. apply (const_call _ nilkey_impl null_result 10); vm_compute; reflexivity. Qed.
Lemma nilkey_out : marshal_returns nilkeyH (mem_of nilkeyH nilkey_t nilkey_v) (Some (nilkey_t, word_of nilkeyH nilkey_t nilkey_v)) [] (MOk (lit "{null:1}")).
Proof. exists 12%nat; split; [vm_compute; reflexivity | discriminate]. Qed.
Lemma nilkey_entry : Forall2 (entry_bytes nilkeyH timeV default_opts (TIface (Some 0%nat)) (TInt KInt)) [(VNil, VInt 1)] [(lit "null", lit "1")].
Proof.
  constructor; [|constructor]. split; [|exists 3%nat; vm_compute; reflexivity]. right. right. split; [reflexivity|]. split; [reflexivity|]. exists (lit "null").
  split; [exists 3%nat; vm_compute; reflexivity | reflexivity].
Qed.

(** type K int with MarshalText and AppendJSON, which returns 17:
    map[K]int{1: 2} with UnsortedMap. *)
Definition both_opts : list (option option_) := [Some OUnsortedMap].
Definition both_o : encOpts := match call_opts both_opts with Some o => o | None => default_opts end.
Definition both_impl (t : typ) (k : mkind) : bool := match t, k with TNamed 0%nat, MText | TNamed 0%nat, MApp => true | _, _ => false end.
Definition both_result (k : mkind) (td : typ) (ctx : option Z) : bytes + Z := inl match k with MApp => lit "17" | _ => lit "a" end.
Definition bothH : host := constH [TInt KInt] both_impl both_result.
Definition bothV := constV both_result.
Lemma both_ok : host_ok bothH bothV.
Proof. apply constH_ok; [vm_compute; reflexivity|]. intros [] td ctx b [= <-]; apply bytes_okb_ok; reflexivity. Qed.
Definition both_t : typ := TMap (TNamed 0%nat) (TInt KInt).
Definition both_v : val := VMap [(VInt 1, VInt 2)].
Lemma both_call : call bothH (mem_of bothH both_t both_v) both_t (word_of bothH both_t both_v) both_v both_opts both_o.
Proof. apply (const_call _ both_impl both_result 10); vm_compute; reflexivity. Qed.
Lemma both_out : marshal_returns bothH (mem_of bothH both_t both_v) (Some (both_t, word_of bothH both_t both_v)) both_opts (MOk (lit "{17:2}")).
Proof. exists 12%nat; split; [vm_compute; reflexivity | discriminate]. Qed.
Lemma both_entry : Forall2 (entry_bytes bothH bothV both_o (TNamed 0%nat) (TInt KInt)) [(VInt 1, VInt 2)] [(lit "17", lit "2")].
Proof.
  constructor; [|constructor]. split; [|exists 3%nat; vm_compute; reflexivity]. right. right. split; [reflexivity|]. split; [reflexivity|]. exists (lit "17").
  split; [exists 3%nat; vm_compute; reflexivity | reflexivity].
Qed.

Theorem C25_method_names_refuted : (host_ok nilkeyH timeV /\ ~ names_quoted nilkeyH timeV) /\ (host_ok bothH bothV /\ ~ names_quoted bothH bothV).
Proof.
  split; (split; [first [exact nilkey_ok | exact both_ok]|]); intros J.
  - assert (X := J _ _ _ _ [] default_opts _ nilkey_t false false (TIface (Some 0%nat)) (TInt KInt) [(VNil, VInt 1)] _ ltac:(split; vm_compute; reflexivity) nilkey_call nilkey_out
      (inner_refl _ _ _) (conj eq_refl eq_refl) eq_refl nilkey_entry). inversion X as [|? ? (us & Hj) _]; subst. cbn [fst] in Hj. inversion Hj.
  - assert (X := J _ _ _ _ both_opts both_o _ both_t false false (TNamed 0%nat) (TInt KInt) [(VInt 1, VInt 2)] _ ltac:(split; vm_compute; reflexivity) both_call both_out
      (inner_refl _ _ _) (conj eq_refl eq_refl) eq_refl both_entry). inversion X as [|? ? (us & Hj) _]; subst. cbn [fst] in Hj. inversion Hj.
Qed.
Example C25_text_nil : ~ is_name (lit "null", lit "1").
Proof.
  assert (X := C25_text_exact nilkeyH timeV default_opts (TIface (Some 0%nat)) (TInt KInt) _ _ eq_refl eq_refl eq_refl nilkey_entry). inversion X as [|? ? ? ? Y _]; subst. rewrite Y.
  intros [A _]. exact (A eq_refl eq_refl).
Qed.

(** type K int with MarshalText only, which returns the letter a. *)
Definition textonly_impl (t : typ) (k : mkind) : bool := match t, k with TNamed 0%nat, MText => true | _, _ => false end.
Definition textonlyH : host := constH [TInt KInt] textonly_impl both_result.
Example C25_text_name : is_name (lit """a""", lit "2").
Proof.
  assert (F : Forall2 (entry_bytes textonlyH bothV default_opts (TNamed 0%nat) (TInt KInt)) [(VInt 1, VInt 2)] [(lit """a""", lit "2")]).
  { constructor; [|constructor]. split; [|exists 3%nat; vm_compute; reflexivity]. right. right. split; [reflexivity|]. split; [reflexivity|]. exists (lit """a""").
    split; [exists 3%nat; vm_compute; reflexivity | reflexivity]. }
  assert (X := C25_text_exact textonlyH bothV default_opts (TNamed 0%nat) (TInt KInt) _ _ eq_refl eq_refl eq_refl F). inversion X as [|? ? ? ? Y _]; subst. apply Y.
  split; [discriminate|]. intros td w b _ [= <-]. exists (utf16 97 ++ []). apply (jc_rune true 97 [] []); [unfold scalar; lia | lia | lia | lia | constructor].
Qed.

Print Assumptions C56_keys_exact.
Print Assumptions C56_time_keys_exact.
Print Assumptions C56_maps_partial.
Print Assumptions C56_maps_refuted.
Print Assumptions C25_text_exact.
Print Assumptions C25_method_names_refuted.
