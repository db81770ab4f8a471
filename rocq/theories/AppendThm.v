(** Every instruction only appends to the destination and ignores what is
    already there, on any memory: no assumption on the type or value. *)
From Verif Require Import Base IntModel JsonSpec OptionsModel EscapeModel TypesModel TagsModel TimeModel FloatModel LeafModel
  Base64Model MemModel FieldsModel InstrModel ExecModel ValueModel ExecMono ExecLeaf ExecProof MarshalThm.

Lemma app_res_nil r : app_res [] r = r.
Proof. destruct r; reflexivity. Qed.
Lemma app_res_app a b r : app_res (a ++ b) r = app_res a (app_res b r).
Proof. destruct r; cbn [app_res]; [rewrite app_assoc|..]; reflexivity. Qed.

Definition appends (e : bytes -> res) : Prop := forall dst b, e (dst ++ b) = app_res dst (e b).

Lemma appends_of e : (forall dst, e dst = app_res dst (e [])) -> appends e.
Proof. intros He dst b. rewrite (He (dst ++ b)), (He b). apply app_res_app. Qed.

Lemma bind_app r dst k k' : (forall d, k (dst ++ d) = app_res dst (k' d)) -> bind (app_res dst r) k = app_res dst (bind r k').
Proof. intros Hk. destruct r as [d [e|]| |]; cbn [bind app_res]; auto. Qed.

(** Bytes in memory are bytes. *)
Definition mem_bytes_ok (m : mem) : Prop := forall a n, m a = Some (CInt KUint8 n) -> 0 <= n < 256.

(** Methods that append, append; the others give bytes. *)
Definition methods_append (H : host) (m : mem) : Prop := forall k td w ctx,
  match k with
  | MCtx | MApp => forall dst, h_call H k td w m ctx dst = match h_call H k td w m ctx [] with Some (inl b) => Some (inl (dst ++ b)) | r => r end
  | _ => forall b, h_call H k td w m ctx [] = Some (inl b) -> bytes_ok b
  end.

Section Append.
  Variable H : host.
  Variable o : encOpts.
  Variable m : mem.
  Hypothesis MB : mem_bytes_ok m.
  Hypothesis MA : methods_append H m.

  Lemma rd_bytes_ok a n b : rd_bytes m a n = Some b -> bytes_ok b.
  Proof.
    revert a b. induction n as [|n IH]; intros a b; cbn [rd_bytes]; [intros [= <-]; constructor|].
    destruct (rd_int m (LMem a) KUint8) as [x|] eqn:Ex; [|discriminate]. destruct (rd_bytes m (a + 1) n) as [bs|] eqn:Eb; [|discriminate].
    intros [= <-]. constructor; [|eapply IH; eauto]. unfold rd_int in Ex. cbn [rd] in Ex. destruct (m a) as [[| k z| | | | | | |]|] eqn:Em; try discriminate.
    destruct k; try discriminate. injection Ex as ->. apply MB in Em. exact Em.
  Qed.

  Lemma rd_string_ok l s : rd_string m l = Some s -> bytes_ok s.
  Proof. unfold rd_string. destruct (rd_header m l) as [[a n]|]; [apply rd_bytes_ok | discriminate]. Qed.
  Lemma rd_slice_ok l v : rd_byte_slice m l = Some v -> forall b, v = Some b -> bytes_ok b.
  Proof.
    unfold rd_byte_slice. destruct (rd_header m l) as [[a n]|]; [|discriminate]. destruct (a =? 0); [intros [= <-] b [=]|].
    destruct (rd_bytes m a (Z.to_nat n)) eqn:Eb; [|discriminate]. intros [= <-] b' [= <-]. eapply rd_bytes_ok; eauto.
  Qed.

  Lemma call_method_appends k t td w : appends (call_method H o m k t td w).
  Proof.
    apply appends_of. intros dst. unfold call_method. assert (M := MA k td w (match k with MCtx => o_ctx o | _ => None end)).
    destruct k.
    - rewrite (M dst). destruct (h_call H MCtx td w m (o_ctx o) []) as [[b|e]|]; cbn [onSome app_res]; rewrite ?app_nil_r; reflexivity.
    - rewrite (M dst). destruct (h_call H MApp td w m None []) as [[b|e]|]; cbn [onSome app_res]; rewrite ?app_nil_r; reflexivity.
    - destruct (h_call H MJson td w m None []) as [r|] eqn:Er; [|reflexivity]. cbn [onSome]. apply json_result_app. intros b ->. apply M. reflexivity.
    - destruct (h_call H MText td w m None []) as [r|] eqn:Er; [|reflexivity]. cbn [onSome]. apply text_result_app.
  Qed.

  Lemma ret_app b : appends (fun dst => Ret (dst ++ b) None).
  Proof. intros dst c. cbn [app_res]. rewrite app_assoc. reflexivity. Qed.

  Lemma marshaler_appends k t hp p : appends (exec_marshaler H o m k t hp p).
  Proof.
    intros dst b. unfold exec_marshaler. assert (C : forall t td w, call_method H o m k t td w (dst ++ b) = app_res dst (call_method H o m k t td w b)) by (intros; apply call_method_appends).
    assert (R := ret_app l_null dst b).
    destruct hp; [destruct p as [[| |]|]; auto|]. destruct (under (h_env H) t); auto.
    - match goal with |- match ?x with _ => _ end = _ => destruct x as [[[td w]|]|]; auto end.
    - destruct (rd_word m p) as [[| |]|]; auto.
  Qed.

  Section Loops.
    Variable ex : instr -> loc -> bytes -> res.
    Hypothesis HE : forall i l, appends (ex i l).

    Lemma fields_app fs p : forall first, appends (exec_fields H o m ex fs p first).
    Proof.
      induction fs as [|f fs IH]; intros first dst b; cbn [exec_fields].
      - cbn [app_res]. destruct first; rewrite app_assoc; reflexivity.
      - destruct (isDeniedField o (sf_name f)); [apply IH|]. destruct (follow m (sf_seq f) p) as [[fp|]|]; cbn [onSome]; [|apply IH | reflexivity].
        destruct (if sf_omitNil f then is_nil m fp else Some false) as [[|]|]; cbn [onSome]; [apply IH | | reflexivity].
        destruct (match sf_empty f with Some t => is_empty H m t fp | None => Some false end) as [[|]|]; cbn [onSome]; [apply IH | | reflexivity].
        fold (key_text o (sf_name f)). set (c := if first then 123 else 44).
        rewrite <- (app_nil_r ([c] ++ key_text o (sf_name f))).
        replace ((dst ++ b) ++ ([c] ++ key_text o (sf_name f)) ++ []) with ((dst ++ b ++ [c] ++ key_text o (sf_name f)) ++ []) by (rewrite <- !app_assoc; reflexivity).
        replace (b ++ ([c] ++ key_text o (sf_name f)) ++ []) with ((b ++ [c] ++ key_text o (sf_name f)) ++ []) by (rewrite <- !app_assoc; reflexivity).
        rewrite !HE. destruct (ex (sf_instr f) fp []) as [d [e|]| |]; cbn [bind app_res]; [rewrite <- !app_assoc; reflexivity | | reflexivity | reflexivity].
        replace ((dst ++ b ++ [c] ++ key_text o (sf_name f)) ++ d) with ((dst ++ b ++ [c]) ++ key_text o (sf_name f) ++ d) by (rewrite <- !app_assoc; reflexivity).
        replace ((b ++ [c] ++ key_text o (sf_name f)) ++ d) with ((b ++ [c]) ++ key_text o (sf_name f) ++ d) by (rewrite <- !app_assoc; reflexivity).
        rewrite !ends_null_key. destruct (sf_omitNull f && tail_null d).
        + replace (firstn (if first then S (length (dst ++ b)) else length (dst ++ b)) ((dst ++ b ++ [c]) ++ key_text o (sf_name f) ++ d))
            with (dst ++ firstn (if first then S (length b) else length b) ((b ++ [c]) ++ key_text o (sf_name f) ++ d)); [apply IH|].
          rewrite <- (app_assoc dst). destruct first; rewrite app_length; [rewrite <- Nat.add_succ_r | idtac]; rewrite <- !app_assoc; rewrite firstn_app_2; reflexivity.
        + rewrite <- !app_assoc. apply IH.
    Qed.

    Lemma elems_app ins es p n : forall i, appends (exec_elems ex ins es p n i).
    Proof.
      induction n as [|n IH]; intros i dst b; cbn [exec_elems].
      - cbn [app_res]. destruct (i =? 0); rewrite app_assoc; reflexivity.
      - rewrite <- app_assoc, HE. apply bind_app. intros d. apply IH.
    Qed.

    Lemma array_app ins es n isba p : appends (exec_array o m ex ins es n isba p).
    Proof.
      intros dst b. unfold exec_array. destruct (isba && has (o_flags o) byteArrayAsString); [|apply elems_app]. destruct p as [a|w off].
      - destruct (rd_bytes m a n) as [s|] eqn:Es; [|reflexivity]. cbn [onSome app_res]. rewrite <- app_assoc, (escaped_app (dst ++ _)), (escaped_app (b ++ _)) by (eapply rd_bytes_ok; eauto).
        rewrite <- !app_assoc. reflexivity.
      - destruct n; [|reflexivity]. cbn [app_res]. rewrite app_assoc. reflexivity.
    Qed.
  End Loops.

  Lemma unsorted_app es : Forall (fun e => appends (fst e) /\ appends (snd e)) es -> forall first, appends (exec_unsorted es first).
  Proof.
    induction 1 as [|[ke ve] es [Hk Hv] _ IH]; intros first dst b; cbn [exec_unsorted fst snd] in *; [reflexivity|].
    destruct first; [|rewrite <- app_assoc]; rewrite Hk; apply bind_app; intros d; rewrite <- app_assoc, Hv; apply bind_app; intros d'; apply IH.
  Qed.

  Lemma join_app kvs : forall first dst b, join_kvs kvs first (dst ++ b) = dst ++ join_kvs kvs first b.
  Proof.
    induction kvs as [|[k kv] kvs IH]; intros first dst b; cbn [join_kvs]; [reflexivity|]. rewrite <- IH. f_equal. destruct first; rewrite <- ?app_assoc; reflexivity.
  Qed.

  Lemma entries_app es : Forall (fun e => appends (fst e) /\ appends (snd e)) es -> appends (exec_entries H o es).
  Proof.
    intros Hf dst b. unfold exec_entries. destruct (has (o_flags o) unsortedMap).
    - rewrite (unsorted_app es Hf). apply bind_app. intros d. apply (ret_app [125]).
    - unfold exec_sorted. destruct (fill es [] []); try reflexivity. cbn [bind app_res]. rewrite join_app, app_assoc. reflexivity.
  Qed.

  Section Sync.
    Variable any : typ -> Z -> bytes -> res.
    Hypothesis HA : forall t w, appends (any t w).
    Lemma sync_key_app k : appends (sync_key H o m any k).
    Proof.
      intros dst b. unfold sync_key. destruct k as [[kt w]|]; [|reflexivity].
      destruct (negb (isString (h_env H) kt) && negb (isInteger (h_env H) kt) && negb (h_impl H kt MText)); [reflexivity|].
      set (qd := negb (isString (h_env H) kt) && negb (h_impl H kt MText)).
      assert (K : forall d, Ret (if qd then (dst ++ d) ++ [34] else dst ++ d) None = app_res dst (Ret (if qd then d ++ [34] else d) None)) by (intros d; destruct qd; cbn [app_res]; rewrite <- ?app_assoc; reflexivity).
      destruct (isString (h_env H) kt) eqn:Es.
      - destruct (rd_string m (LMem w)) as [s|] eqn:Er; [|reflexivity]. cbn [onSome].
        replace (encode_string (dst ++ b) s o) with (dst ++ encode_string b s o); [apply (K (encode_string b s o))|].
        unfold encode_string. rewrite <- app_assoc, (escaped_app (dst ++ _)), (escaped_app (b ++ _)) by (eapply rd_string_ok; eauto). rewrite <- !app_assoc. reflexivity.
      - destruct qd; [rewrite <- app_assoc|]; rewrite HA; apply bind_app; exact K.
    Qed.
    Lemma sync_val_app v : appends (sync_val any v).
    Proof. intros dst b. destruct v as [[vt w]|]; [apply HA | reflexivity]. Qed.
  End Sync.

  Theorem exec_appends f : forall i p, appends (exec H o m f i p).
  Proof.
    induction f as [|f IH]; intros i p dst b; [reflexivity|].
    assert (AN : forall t w, appends (fun dst => match cached_instr H f t with Some i => exec H o m f i (LMem w) dst | None => OutOfFuel end)).
    { intros t w d c. destruct (cached_instr H f t); [apply IH | reflexivity]. }
    assert (SE : forall s, bytes_ok s -> appends (fun dst => Ret (encode_string dst s o) None)).
    { intros s Hs d c. cbn [app_res]. f_equal. unfold encode_string. rewrite <- app_assoc, (escaped_app (d ++ _)), (escaped_app (c ++ _)) by exact Hs. rewrite <- !app_assoc. reflexivity. }
    destruct i; cbn [exec].
    all: try (apply (ret_app _ dst b)).
    - destruct (rd m p) as [[]|]; try reflexivity. cbn [app_res]. rewrite (encode_bool_app (dst ++ b)), (encode_bool_app b), app_assoc. reflexivity.
    - destruct (rd_string m p) as [s|] eqn:Es; [|reflexivity]. cbn [onSome]. apply (SE s (rd_string_ok _ _ Es)).
    - destruct (rd_string m p) as [s|] eqn:Es; [|reflexivity]. cbn [onSome app_res]. apply rd_string_ok in Es. rewrite (encode_quoted_app (dst ++ b)), (encode_quoted_app b), app_assoc by exact Es. reflexivity.
    - destruct (rd_int m p k) as [n|]; [|reflexivity]. cbn [onSome app_res]. rewrite (encode_int_app (dst ++ b)), (encode_int_app b), app_assoc. reflexivity.
    - destruct (rd m p) as [[| |b' x| | | | | |]|]; try reflexivity. destruct (Bool.eqb is64 b'); [|reflexivity]. rewrite (appendFloat_app _ (dst ++ b)), (appendFloat_app _ b). apply app_res_app.
    - destruct (rd_eface m p) as [[[t w]|]|]; cbn [onSome]; [apply (AN t w) | apply (ret_app l_null) | reflexivity].
    - destruct (rd_string m p) as [s|]; [|reflexivity]. cbn [onSome]. rewrite (encode_number_app _ (dst ++ b)), (encode_number_app _ b). apply app_res_app.
    - destruct (rd_byte_slice m p) as [v|] eqn:Ev; [|reflexivity]. cbn [onSome]. assert (V := rd_slice_ok _ _ Ev). rewrite (encode_raw_app _ (dst ++ b)), (encode_raw_app _ b) by exact V. apply app_res_app.
    - destruct (rd m p) as [[]|]; try reflexivity. rewrite (encode_time_app _ _ (dst ++ b)), (encode_time_app _ _ b). apply app_res_app.
    - destruct (rd_int m p KInt64) as [d|]; [|reflexivity]. cbn [onSome]. rewrite (encode_duration_app _ _ _ (dst ++ b)), (encode_duration_app _ _ _ b). apply app_res_app.
    - destruct (rd m p) as [[]|]; try reflexivity. rewrite <- app_assoc. apply entries_app. apply Forall_forall. intros e He. apply in_map_iff in He. destruct He as ([k v] & <- & _). cbn [fst snd].
      split; [apply sync_key_app, AN | apply sync_val_app, AN].
    - reflexivity.
    - destruct (rd_word m p) as [[| |]|]; try reflexivity; [apply (ret_app l_null) | apply IH].
    - apply marshaler_appends.
    - destruct (struct_body H f t canAddr); [apply fields_app, IH | reflexivity].
    - apply array_app, IH.
    - destruct (rd_header m p) as [[a n]|]; [|reflexivity]. cbn [onSome]. destruct (a =? 0); [apply (ret_app _ dst b)|]. destruct (n =? 0); [apply (ret_app _ dst b) | apply array_app, IH].
    - destruct (rd_byte_slice m p) as [v|] eqn:Ev; [|reflexivity]. cbn [onSome app_res]. assert (V := rd_slice_ok _ _ Ev). rewrite (byte_slice_app _ (dst ++ b)), (byte_slice_app _ b), app_assoc by exact V. reflexivity.
    - destruct (rd_word m p) as [[|a|]|]; try reflexivity; [apply (ret_app _ dst b)|]. destruct (m a) as [[]|]; try reflexivity. destruct (length es =? 0)%nat; [apply (ret_app _ dst b)|].
      rewrite <- app_assoc. apply entries_app. apply Forall_forall. intros e He. apply in_map_iff in He. destruct He as ([k v] & <- & _). cbn [fst snd]. split; apply IH.
    - destruct p; [apply IH | reflexivity].
    - rewrite <- app_assoc, IH. apply bind_app. intros d. apply (ret_app [34]).
    - destruct (is_nil m p) as [[|]|]; cbn [onSome]; [apply (ret_app _ dst b) | apply IH | reflexivity].
  Qed.

  Theorem append_json_appends f v : appends (append_json H o m f v).
  Proof. intros dst b. unfold append_json. destruct (cached_instr H f (fst v)); [apply exec_appends | reflexivity]. Qed.
End Append.

Theorem AppendOpts_dst H N m v opts dst : mem_bytes_ok m -> methods_append H m -> (v <> None -> call_opts opts <> None) ->
  AppendOpts H N m dst v opts = app_res dst (AppendOpts H N m [] v opts).
Proof.
  intros MB MA Ho. destruct v as [v|]; [|reflexivity]. unfold AppendOpts. unfold call_opts in Ho. destruct (check_opts opts) as [o|]; [|destruct Ho; [discriminate | reflexivity]].
  assert (A := append_json_appends H o m MB MA N v dst []). rewrite app_nil_r in A. exact A.
Qed.

Theorem MarshalOpts_append H N m v opts : (v <> None -> call_opts opts <> None) -> MarshalOpts H N m v opts = mres_of (AppendOpts H N m [] v opts).
Proof.
  intros Ho. destruct v as [v|]; [|reflexivity]. unfold MarshalOpts, AppendOpts. unfold call_opts in Ho. destruct (check_opts opts) as [o|]; [apply marshal_append | destruct Ho; [discriminate | reflexivity]].
Qed.
