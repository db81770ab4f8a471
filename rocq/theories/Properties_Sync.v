(** C26: what a sync.Map with string keys does, exactly. *)
From Verif Require Import Base Utf8 JsonSpec OptionsModel EscapeModel EscapeProof IntModel TypesModel TypesFacts LeafModel LeafProof
  MemModel FieldsModel InstrModel ExecModel ValueModel ExecMono ExecLeaf ExecProof HostFacts VencFacts MarshalThm DocSpec EntriesFacts ApiFacts CallFacts
  ExampleHost ExampleVals ExampleConst ExampleRead Properties_Strings Properties_Maps.

Section Crash.
  Context {X : Type} (mk : nat -> X -> entry).

  (** What an entry that does not crash gives, for any destination. *)
  Definition settles (f : nat -> bytes -> res) (b : bytes) : Prop := runs (VRet b None) f.

  Lemma unsorted_crash x pre post : (forall y, In y pre -> exists kb vb, settles (fun N => fst (mk N y)) kb /\ settles (fun N => snd (mk N y)) vb) ->
    (exists kb, settles (fun N => fst (mk N x)) kb) -> (forall N dst, snd (mk N x) dst = Crash) ->
    forall first dst, exists N, forall N', (N <= N')%nat -> exec_unsorted (map (mk N') (pre ++ x :: post)) first dst = Crash.
  Proof.
    intros Hp [kb Hk] Hc. induction pre as [|y pre IH]; intros first dst; cbn [app map exec_unsorted].
    - destruct (Hk (if first then dst else dst ++ [44])) as [N HN]. exists N. intros N' L. specialize (HN N' L). specialize (Hc N').
      destruct (mk N' x) as [f1 f2]. cbn [fst snd] in *. rewrite HN. cbn [bind]. rewrite Hc. reflexivity.
    - destruct (Hp y (or_introl eq_refl)) as (ky & vy & Ky & Vy). specialize (IH (fun z Hz => Hp z (or_intror Hz))).
      destruct (Ky (if first then dst else dst ++ [44])) as [N1 H1]. destruct (Vy (((if first then dst else dst ++ [44]) ++ ky) ++ [58])) as [N2 H2].
      destruct (IH false ((((if first then dst else dst ++ [44]) ++ ky) ++ [58]) ++ vy)) as [N3 H3].
      exists (Nat.max N1 (Nat.max N2 N3)). intros N' L. specialize (H1 N' ltac:(lia)). specialize (H2 N' ltac:(lia)). specialize (H3 N' ltac:(lia)).
      destruct (mk N' y) as [f1 f2]. cbn [fst snd] in *. rewrite H1. cbn [bind].
      match goal with |- context [f2 ?z] => change z with (((if first then dst else dst ++ [44]) ++ ky) ++ [58]) end. rewrite H2. cbn [bind]. exact H3.
  Qed.

  Lemma fill_crash x pre post : (forall y, In y pre -> exists kb vb, (2 <= length kb)%nat /\ settles (fun N => fst (mk N y)) kb /\ settles (fun N => snd (mk N y)) vb) ->
    (exists kb, settles (fun N => fst (mk N x)) kb) -> (forall N dst, snd (mk N x) dst = Crash) ->
    forall kvs buf, exists N, forall N', (N <= N')%nat -> fill (map (mk N') (pre ++ x :: post)) buf kvs = FCrash.
  Proof.
    intros Hp [kb Hk] Hc. induction pre as [|y pre IH]; intros kvs buf; cbn [app map fill].
    - destruct (Hk buf) as [N HN]. exists N. intros N' L. specialize (HN N' L). specialize (Hc N').
      destruct (mk N' x) as [f1 f2]. cbn [fst snd] in *. rewrite HN. destruct (_ <? _)%nat; [reflexivity|]. rewrite Hc. reflexivity.
    - destruct (Hp y (or_introl eq_refl)) as (ky & vy & Ly & Ky & Vy). specialize (IH (fun z Hz => Hp z (or_intror Hz))).
      destruct (Ky buf) as [N1 H1]. destruct (Vy ((buf ++ ky) ++ [58])) as [N2 H2].
      destruct (IH (kvs ++ [(firstn (length (buf ++ ky) - 2 - length buf) (skipn (length buf + 1) (buf ++ ky)), skipn (length buf) (((buf ++ ky) ++ [58]) ++ vy))]) (((buf ++ ky) ++ [58]) ++ vy)) as [N3 H3].
      exists (Nat.max N1 (Nat.max N2 N3)). intros N' L. specialize (H1 N' ltac:(lia)). specialize (H2 N' ltac:(lia)). specialize (H3 N' ltac:(lia)).
      destruct (mk N' y) as [f1 f2]. cbn [fst snd] in *. rewrite H1.
      replace (length (buf ++ ky) <? length buf + 2)%nat with false by (rewrite app_length; lia). rewrite H2. exact H3.
  Qed.
End Crash.

(** A value that is encoded without error, and a nil one, under a string key. *)
Definition string_key (H : host) (k : val) : Prop := exists kt s, k = VIface kt (VStr s) /\ isString (h_env H) kt = true.
Definition fine (H : host) (vcall : mkind -> typ -> val -> option Z -> bytes + Z) (o : encOpts) (x : val) : Prop :=
  exists vt v b, x = VIface vt v /\ encodes H vcall o vt v b None.

Section Sync.
  Variable H : host.
  Variable vcall : mkind -> typ -> val -> option Z -> bytes + Z.
  Hypothesis OK : host_ok H vcall.
  Variable o : encOpts.
  Variable m : mem.

  Let mk (N : nat) (e : eface * eface) : entry :=
    (sync_key H o m (fun t w d => append_json H o m N (t, w) d) (fst e), sync_val (fun t w d => append_json H o m N (t, w) d) (snd e)).

  Lemma key_settles e k : string_key H k -> repr_any H m e k ->
    exists kb, (2 <= length kb)%nat /\ runs (VRet kb None) (fun N dst => sync_key H o m (fun t w d => append_json H o m N (t, w) d) e dst).
  Proof.
    intros (kt & s & -> & Hs) Hr. destruct (sync_runs H vcall OK o m 0 0 e _ (good_all H vcall OK o m 0) Hr) as [A _].
    unfold vsync_key in A. rewrite Hs in A. exists (encode_string [] s o). split; [|exact A].
    assert (B : bytes_ok s).
    { inversion Hr as [|td w v Ht Hi Hd Hn]; subst. eapply (string_bytes H m kt w); [|exact Hr]. unfold isString in Hs. destruct (under (h_env H) kt); try discriminate. reflexivity. }
    rewrite encode_string_body by exact B. cbn [length]. rewrite app_length. cbn [length]. lia.
  Qed.
  Lemma value_settles e x : fine H vcall o x -> repr_any H m e x ->
    exists vb, runs (VRet vb None) (fun N dst => sync_val (fun t w d => append_json H o m N (t, w) d) e dst).
  Proof.
    intros (vt & v & b & -> & n & Hn) Hr. destruct (sync_runs H vcall OK o m n n e _ (good_all H vcall OK o m n) Hr) as [_ A].
    cbn [vsync_val] in A. unfold venc_any in Hn. rewrite Hn in A. exists b. exact A.
  Qed.

  Lemma entries_settle efs es : length efs = length es ->
    (forall i ke ve kv vv, nth_error efs i = Some (ke, ve) -> nth_error es i = Some (kv, vv) -> repr_any H m ke kv /\ repr_any H m ve vv) ->
    Forall (fun e => string_key H (fst e) /\ fine H vcall o (snd e)) es ->
    forall y, In y efs -> exists kb vb, (2 <= length kb)%nat /\ runs (VRet kb None) (fun N => fst (mk N y)) /\ runs (VRet vb None) (fun N => snd (mk N y)).
  Proof.
    intros L R F [ke ve] Hy. apply In_nth_error in Hy. destruct Hy as [i Hi]. destruct (nth_error es i) as [[kv vv]|] eqn:Ei.
    - destruct (R i ke ve kv vv Hi Ei) as [R1 R2]. rewrite Forall_forall in F. destruct (F _ (nth_error_In _ _ Ei)) as [F1 F2]. cbn [fst snd] in F1, F2.
      destruct (key_settles ke kv F1 R1) as (kb & L2 & Hk). destruct (value_settles ve vv F2 R2) as (vb & Hv). exists kb, vb. split; [exact L2|]. split; assumption.
    - apply nth_error_None in Ei. assert (i < length efs)%nat by (apply nth_error_Some; congruence). lia.
  Qed.

  Lemma sync_json w efs dst N : DocSpec.plain H (TPtr TSyncMap) true -> 0 < w -> m w = Some (CSync efs) ->
    append_json H o m (S (S (S N))) (TPtr TSyncMap, w) dst = exec_entries H o (map (mk N) efs) (dst ++ [123]).
  Proof.
    intros [_ P] Hw Hm. assert (P' : is_ptr H (TPtr TSyncMap) = true) by reflexivity. unfold append_json, cached_instr. cbn [fst snd]. rewrite P'.
    cbn [compile isInlined]. rewrite (marshaler_pick H). rewrite P. cbn [option_map go_type_instr basic_instr under exec]. unfold rd_word. cbn [rd]. rewrite Z.eqb_refl.
    replace (w =? 0) with false by lia. rewrite Hm. reflexivity.
  Qed.
End Sync.

(** The values are encoded or nil: Marshal panics if there is a nil one, and
    succeeds if there is none. *)
Theorem C26_exact H vcall m w es opts o : host_ok H vcall -> DocSpec.plain H (TPtr TSyncMap) true ->
  holds H m (TPtr TSyncMap) w (VPtr (VSync es)) -> call_opts opts = Some o ->
  (forall k x, In (k, x) es -> string_key H k /\ (x = VNil \/ fine H vcall o x)) ->
  ((exists k, In (k, VNil) es) -> forall r, marshal_returns H m (Some (TPtr TSyncMap, w)) opts r <-> r = MCrash) /\
  ((forall k, ~ In (k, VNil) es) -> exists out, forall r, marshal_returns H m (Some (TPtr TSyncMap, w)) opts r <-> r = MOk out).
Proof.
  intros OK P Hh Ho He.
  assert (Hm : 0 < w /\ exists efs, m w = Some (CSync efs) /\ length efs = length es /\
    forall i ke ve kv vv, nth_error efs i = Some (ke, ve) -> nth_error es i = Some (kv, vv) -> repr_any H m ke kv /\ repr_any H m ve vv).
  { inversion Hh as [|td w0 v Ht Hi Hd Hn]; subst. assert (D : direct H (TPtr TSyncMap)) by (eapply d_ptr; reflexivity). specialize (Hd D).
    destruct (inv_ptr H m _ _ _ Hd) as (e & a & [= <-] & R & La & Rp). cbn [rd] in R. rewrite Z.eqb_refl in R. injection R as <-.
    destruct (inv_sync H m _ _ _ Rp) as (_ & efs & Q). split; [exact La|]. exists efs. exact Q. }
  destruct Hm as (Hw & efs & Hm & Hl & Hr).
  assert (G : forall r, (exists N, forall N', (N <= N')%nat -> exec_entries H o (map (fun e => (sync_key H o m (fun t w d => append_json H o m N' (t, w) d) (fst e), sync_val (fun t w d => append_json H o m N' (t, w) d) (snd e))) efs) [123] = r) ->
    r <> OutOfFuel -> forall q, marshal_returns H m (Some (TPtr TSyncMap, w)) opts q <-> q = match r with Ret b None => MOk b | Ret _ (Some e) => MErr e | Crash => MCrash | OutOfFuel => MFuel end).
  { intros r [N HN] Hf q. assert (A : marshal_returns H m (Some (TPtr TSyncMap, w)) opts (match r with Ret b None => MOk b | Ret _ (Some e) => MErr e | Crash => MCrash | OutOfFuel => MFuel end)).
    { exists (S (S (S N))). unfold MarshalOpts. rewrite (check_opts_ok _ _ Ho). unfold marshal_json. rewrite (sync_json H o m w efs [] N P Hw Hm). cbn [app]. rewrite HN by lia.
      split; [reflexivity|]. destruct r as [b [e|]| |]; try discriminate. congruence. }
    split; [intros B; eapply marshal_returns_det; eauto | intros ->; exact A]. }
  split.
  - intros Hn. 
    assert (S0 : exists pre k post, es = pre ++ (k, VNil) :: post /\ Forall (fun e => string_key H (fst e) /\ fine H vcall o (snd e)) pre /\ string_key H k).
    { clear - He Hn. induction es as [|[k x] es IH]; [destruct Hn as [k []]|]. destruct (He k x (or_introl eq_refl)) as [K [-> | F]].
      - exists [], k, es. auto.
      - destruct IH as (pre & k' & post & -> & A & B); [intros; apply He; right; assumption | destruct Hn as [k' [E|Hn]]; [injection E as -> ->; destruct F as (? & ? & ? & ? & _); discriminate | eauto]|].
        exists ((k, x) :: pre), k', post. split; [reflexivity|]. split; [constructor; auto | exact B]. }
    destruct S0 as (pre & k & post & -> & Fp & Fk).
    assert (S1 : exists pre' x post', efs = pre' ++ x :: post' /\ length pre' = length pre).
    { clear - Hl. exists (firstn (length pre) efs). rewrite app_length in Hl. cbn [length] in Hl. destruct (skipn (length pre) efs) as [|x post'] eqn:E.
      - assert (X := skipn_length (length pre) efs). rewrite E in X. cbn [length] in X. lia.
      - exists x, post'. rewrite <- E. rewrite firstn_skipn, firstn_length. split; [reflexivity | lia]. }
    destruct S1 as (pre' & [ke ve] & post' & -> & Lp).
    assert (Hp : forall y, In y pre' -> exists kb vb, (2 <= length kb)%nat /\ runs (VRet kb None) (fun N dst => sync_key H o m (fun t w d => append_json H o m N (t, w) d) (fst y) dst) /\
      runs (VRet vb None) (fun N dst => sync_val (fun t w d => append_json H o m N (t, w) d) (snd y) dst)).
    { intros y Hy. apply (entries_settle H vcall OK o m pre' pre Lp); auto. intros i a b c d A B. apply (Hr i); [rewrite nth_error_app1; [exact A | apply nth_error_Some; congruence] | rewrite nth_error_app1; [exact B | apply nth_error_Some; congruence]]. }
    destruct (Hr (length pre) ke ve k VNil) as [R1 R2]; [rewrite <- Lp, nth_error_app2, Nat.sub_diag by lia; reflexivity | rewrite nth_error_app2, Nat.sub_diag by lia; reflexivity|].
    assert (ve = None) by (inversion R2; reflexivity). subst ve. destruct (key_settles H vcall OK o m ke k Fk R1) as (kb & _ & Hk).
    intros r. rewrite (G Crash); [reflexivity | | discriminate]. unfold exec_entries. destruct (has (o_flags o) unsortedMap).
    + destruct (unsorted_crash (fun N e => (sync_key H o m (fun t w d => append_json H o m N (t, w) d) (fst e), sync_val (fun t w d => append_json H o m N (t, w) d) (snd e))) (ke, None) pre' post') with (first := true) (dst := [123]) as [N HN];
        [intros y Hy; destruct (Hp y Hy) as (a & b & _ & A & B); exists a, b; split; assumption | exists kb; exact Hk | reflexivity|].
      exists N. intros N' L. rewrite HN by exact L. reflexivity.
    + unfold exec_sorted. destruct (fill_crash (fun N e => (sync_key H o m (fun t w d => append_json H o m N (t, w) d) (fst e), sync_val (fun t w d => append_json H o m N (t, w) d) (snd e))) (ke, None) pre' post') with (kvs := @nil (bytes * bytes)) (buf := @nil Z) as [N HN];
        [exact Hp | exists kb; exact Hk | reflexivity|].
      exists N. intros N' L. rewrite HN by exact L. reflexivity.
  - intros Hn. assert (Fe : Forall (fun e => string_key H (fst e) /\ fine H vcall o (snd e)) es).
    { apply Forall_forall. intros [k x] Hi. cbn [fst snd]. destruct (He k x Hi) as [K [-> | F]]; [destruct (Hn k Hi) | auto]. }
    assert (Hp := entries_settle H vcall OK o m efs es Hl Hr Fe).
    assert (V : exists kvs, Forall2 (fun y kv => (2 <= length (fst kv))%nat /\ runs (VRet (fst kv) None) (fun N dst => sync_key H o m (fun t w d => append_json H o m N (t, w) d) (fst y) dst) /\
      runs (VRet (snd kv) None) (fun N dst => sync_val (fun t w d => append_json H o m N (t, w) d) (snd y) dst)) efs kvs).
    { clear - Hp. induction efs as [|y efs IH]; [exists []; constructor|]. destruct (Hp y (or_introl eq_refl)) as (a & b & A). destruct IH as [kvs F]; [intros z Hz; apply Hp; right; exact Hz|]. exists ((a, b) :: kvs). constructor; auto. }
    destruct V as [kvs V].
    set (mk := fun N (x : (eface * eface) * member) => (sync_key H o m (fun t w d => append_json H o m N (t, w) d) (fst (fst x)), sync_val (fun t w d => append_json H o m N (t, w) d) (snd (fst x)))).
    set (vr := fun x : (eface * eface) * member => (VRet (fst (snd x)) None, VRet (snd (snd x)) None)).
    assert (R := ventries_runs H o mk vr (combine efs kvs)).
    assert (Q : exists out, ventries H o (map vr (combine efs kvs)) = VRet out None).
    { unfold ventries. assert (F2 : Forall2 gives (map vr (combine efs kvs)) kvs) by (clear - V; induction V as [|y kv efs kvs _ V IH]; cbn [combine map]; [constructor | constructor; [split; reflexivity | exact IH]]).
      assert (F3 : Forall (fun kv => (2 <= length (fst kv))%nat) kvs) by (clear - V; induction V as [|y kv efs kvs X V IH]; constructor; tauto).
      destruct (has (o_flags o) unsortedMap).
      - eexists. erewrite (proj2 (vunsorted_ret _ _ _ _)); [|exists kvs; split; [exact F2 | reflexivity]]. reflexivity.
      - unfold vsorted. eexists. erewrite (proj2 (vfill_ret _ _ _)); [|exists kvs; split; [exact F2 | split; [exact F3 | reflexivity]]]. reflexivity. }
    destruct Q as [out Q]. exists out. rewrite Q in R.
    assert (R' : forall x, In x (combine efs kvs) -> runs (fst (vr x)) (fun N => fst (mk N x)) /\ runs (snd (vr x)) (fun N => snd (mk N x))).
    { subst mk vr. clear R Q. clear - V. intros [y kv] X. revert X. induction V as [|y' kv' efs kvs A V IH]; cbn [combine]; [intros []|]. intros [E|X]; [injection E as -> ->; destruct A as (_ & A & B); split; assumption | apply IH; exact X]. }
    destruct (R R' []) as [N HN].
    apply (G (Ret out None)); [|discriminate]. exists N. intros N' L. etransitivity; [|exact (HN N' L)]. cbn [app]. f_equal. unfold mk.
    rewrite (combine_fst_map (fun e => (sync_key H o m (fun t w d => append_json H o m N' (t, w) d) (fst e), sync_val (fun t w d => append_json H o m N' (t, w) d) (snd e)))); [reflexivity|].
    clear - V. induction V; cbn [length]; congruence.
Qed.

(** ** Concrete cases *)
(** m.Store("a", 1); m.Store("b", nil) *)
Definition mix_es : list (val * val) := [(VIface TString (VStr (lit "a")), VIface (TInt KInt) (VInt 1)); (VIface TString (VStr (lit "b")), VNil)].
Definition mix_v : val := VPtr (VSync mix_es).
Lemma mix_holds : holds mapH (mem_of mapH nilval_t mix_v) nilval_t (word_of mapH nilval_t mix_v) mix_v.
Proof. apply (holdsb_ok mapH declb declb_ok _ 10). vm_compute. reflexivity. Qed.
Lemma one_fine : fine mapH plainV default_opts (VIface (TInt KInt) (VInt 1)).
Proof. exists (TInt KInt), (VInt 1), (lit "1"). split; [reflexivity|]. exists 5%nat. vm_compute. reflexivity. Qed.
Lemma sync_plain : DocSpec.plain mapH (TPtr TSyncMap) true.
Proof. split; reflexivity. Qed.

Example C26_exact_panics : forall r, marshal_returns mapH (mem_of mapH nilval_t mix_v) (Some (nilval_t, word_of mapH nilval_t mix_v)) [] r <-> r = MCrash.
Proof.
  apply (C26_exact mapH plainV _ _ mix_es [] default_opts map_ok sync_plain mix_holds eq_refl).
  - intros k x [E|[E|[]]]; injection E as <- <-; (split; [eexists; eexists; split; reflexivity|]); [right; exact one_fine | left; reflexivity].
  - eexists. right. left. reflexivity.
Qed.

(** m.Store("a", 1) *)
Definition fine_es : list (val * val) := [(VIface TString (VStr (lit "a")), VIface (TInt KInt) (VInt 1))].
Definition fine_v : val := VPtr (VSync fine_es).
Lemma fine_holds : holds mapH (mem_of mapH nilval_t fine_v) nilval_t (word_of mapH nilval_t fine_v) fine_v.
Proof. apply (holdsb_ok mapH declb declb_ok _ 10). vm_compute. reflexivity. Qed.
Example C26_exact_fine : exists out, forall r, marshal_returns mapH (mem_of mapH nilval_t fine_v) (Some (nilval_t, word_of mapH nilval_t fine_v)) [] r <-> r = MOk out.
Proof.
  apply (C26_exact mapH plainV _ _ fine_es [] default_opts map_ok sync_plain fine_holds eq_refl).
  - intros k x [E|[]]; injection E as <- <-. split; [eexists; eexists; split; reflexivity|]. right. exact one_fine.
  - intros k [E|[]]. discriminate.
Qed.

Print Assumptions C26_exact.
