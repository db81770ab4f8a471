(** More fuel does not change the outcome of a run that had enough. *)
From Verif Require Import Base IntModel JsonSpec OptionsModel EscapeModel TypesModel TagsModel TimeModel FloatModel LeafModel
  Base64Model MemModel FieldsModel InstrModel ExecModel ValueModel.
Local Open Scope nat_scope.

Section Mono.
  Variable H : host.
  Let E := h_env H.

  Lemma compile_mono f : forall f' t ca q i, compile H f t ca q = Some i -> f <= f' -> compile H f' t ca q = Some i.
  Proof.
    induction f as [|f IH]; intros f' t ca q i; [discriminate|]. destruct f' as [|f']; [lia|]. intros Hc Hf.
    cbn [compile] in *. destruct (go_type_instr t); [exact Hc|]. destruct (marshaler_instr H t ca); [exact Hc|].
    destruct (basic_instr H t q); [exact Hc|].
    destruct (under (h_env H) t); try exact Hc.
    - destruct (compile H f t0 true q) eqn:Ei; [|discriminate]. erewrite IH by (eauto; lia). exact Hc.
    - destruct (byte_elem H t0); [exact Hc|].
      destruct (compile H f t0 true false) eqn:Ei; [|discriminate]. erewrite IH by (eauto; lia). exact Hc.
    - destruct (compile H f t0 ca false) eqn:Ei; [|discriminate]. erewrite IH by (eauto; lia). exact Hc.
    - destruct (negb (key_ok H t0_1)); [exact Hc|].
      destruct (isString (h_env H) t0_1).
      + destruct (compile H f t0_2 false false) eqn:Ei; [|discriminate]. erewrite IH by (eauto; lia). exact Hc.
      + destruct (compile H f t0_1 false false) eqn:Ek; [|discriminate].
        rewrite (IH f' _ _ _ _ Ek) by lia.
        destruct (compile H f t0_2 false false) eqn:Ei; [|discriminate]. rewrite (IH f' _ _ _ _ Ei) by lia. exact Hc.
  Qed.

  Lemma compile_det f f' t ca q i i' : compile H f t ca q = Some i -> compile H f' t ca q = Some i' -> i = i'.
  Proof.
    intros A B. apply (compile_mono f (Nat.max f f')) in A; [|lia]. apply (compile_mono f' (Nat.max f f')) in B; [|lia]. congruence.
  Qed.

  Lemma isInlined_mono f : forall f' t b, isInlined H f t = Some b -> f <= f' -> isInlined H f' t = Some b.
  Proof.
    induction f as [|f IH]; intros f' t b; [discriminate|]. destruct f' as [|f']; [lia|]. intros Hc Hf. cbn [isInlined] in *.
    destruct (under (h_env H) t); try exact Hc. destruct fs as [|[d u] [|? ?]]; try exact Hc. eapply IH; eauto. lia.
  Qed.

  Lemma is_direct_mono f : forall f' t b, is_direct H f t = Some b -> f <= f' -> is_direct H f' t = Some b.
  Proof.
    induction f as [|f IH]; intros f' t b; [discriminate|]. destruct f' as [|f']; [lia|]. intros Hc Hf. cbn [is_direct] in *.
    destruct (under (h_env H) t); try exact Hc.
    - destruct n as [|[|n]]; try exact Hc. eapply IH; eauto. lia.
    - destruct fs as [|[d u] [|? ?]]; try exact Hc. eapply IH; eauto. lia.
  Qed.

  Lemma cached_mono f f' t i : cached_instr H f t = Some i -> f <= f' -> cached_instr H f' t = Some i.
  Proof.
    unfold cached_instr. destruct (compile H f t _ _) eqn:Ec; [|discriminate]. destruct (isInlined H f t) eqn:Ei; [|discriminate].
    intros Hc Hf. rewrite (compile_mono _ f' _ _ _ _ Ec Hf), (isInlined_mono _ f' _ _ Ei Hf). exact Hc.
  Qed.

  Lemma bfs_mono f : forall f' seen st fs, bfs H f seen st = Some fs -> f <= f' -> bfs H f' seen st = Some fs.
  Proof.
    induction f as [|f IH]; intros f' seen st fs Hb Hf; cbn [bfs] in *.
    - destruct f'; cbn [bfs]; destruct (s_next st); try discriminate; exact Hb.
    - destruct f' as [|f']; [lia|]. cbn [bfs]. destruct (s_next st); [exact Hb|].
      destruct (level _ _ _ _ _) as [seen' st']. eapply IH; eauto. lia.
  Qed.

  Lemma structFields_mono f f' t fs : structFields H f t = Some fs -> f <= f' -> structFields H f' t = Some fs.
  Proof.
    unfold structFields. destruct (bfs H f _ _) eqn:Eb; [|discriminate]. intros Hs Hf. rewrite (bfs_mono _ f' _ _ _ Eb Hf). exact Hs.
  Qed.

  Lemma build_field_mono f f' t ca x s : build_field H f t ca x = Some s -> f <= f' -> build_field H f' t ca x = Some s.
  Proof.
    unfold build_field. destruct (type_by_index H t (f_index x)); [|discriminate].
    destruct (compile H f _ _ _) eqn:Ec; [|discriminate]. intros Hs Hf. rewrite (compile_mono _ f' _ _ _ _ Ec Hf). exact Hs.
  Qed.

  Lemma build_fields_mono f f' t ca fs : forall ss, build_fields H f t ca fs = Some ss -> f <= f' -> build_fields H f' t ca fs = Some ss.
  Proof.
    induction fs as [|x fs IH]; intros ss Hs Hf; cbn [build_fields] in *; [exact Hs|].
    destruct (build_field H f t ca x) eqn:Eb; [|discriminate]. destruct (build_fields H f t ca fs) eqn:Es; [|discriminate].
    rewrite (build_field_mono _ f' _ _ _ _ Eb Hf), (IH _ eq_refl Hf). exact Hs.
  Qed.

  Lemma struct_body_mono f f' t ca ss : struct_body H f t ca = Some ss -> f <= f' -> struct_body H f' t ca = Some ss.
  Proof.
    unfold struct_body. destruct (fields_of H t); [auto|]. destruct (structFields H f t) eqn:Es; [|discriminate].
    intros Hs Hf. rewrite (structFields_mono _ f' _ _ Es Hf). eapply build_fields_mono; eauto.
  Qed.

  (** r' is r, unless r ran out of fuel *)
  Definition le_res (r r' : res) : Prop := r <> OutOfFuel -> r' = r.
  Definition le_fun (e e' : bytes -> res) : Prop := forall d, le_res (e d) (e' d).
  Definition le_ex (e e' : instr -> loc -> bytes -> res) : Prop := forall i l, le_fun (e i l) (e' i l).

  Lemma le_refl r : le_res r r.
  Proof. intros _. reflexivity. Qed.

  Lemma le_bind r r' k k' : le_res r r' -> (forall d, le_res (k d) (k' d)) -> le_res (bind r k) (bind r' k').
  Proof.
    intros Hr Hk Hn. destruct r as [d [e|]| |]; cbn [bind] in *; try (rewrite Hr by discriminate; cbn [bind]; auto); try congruence.
    apply Hk, Hn.
  Qed.

  Lemma le_onSome {A} (r : option A) k k' : (forall x, le_res (k x) (k' x)) -> le_res (onSome r k) (onSome r k').
  Proof. intros Hk. destruct r; cbn [onSome]; [apply Hk | apply le_refl]. Qed.

  Variable o : encOpts.
  Variable m : mem.

  Lemma exec_fields_mono ex ex' : le_ex ex ex' -> forall fs p first dst,
    le_res (exec_fields H o m ex fs p first dst) (exec_fields H o m ex' fs p first dst).
  Proof.
    intros Hx. induction fs as [|f fs IH]; intros p first dst; [apply le_refl|]. cbn [exec_fields].
    destruct (isDeniedField o (sf_name f)); [apply IH|]. apply le_onSome. intros [fp|]; [|apply IH].
    apply le_onSome. intros [|]; [apply IH|]. apply le_onSome. intros [|]; [apply IH|].
    apply le_bind; [apply Hx | intros d; apply IH].
  Qed.

  Lemma exec_elems_mono ex ex' : le_ex ex ex' -> forall ins es p n i dst,
    le_res (exec_elems ex ins es p n i dst) (exec_elems ex' ins es p n i dst).
  Proof.
    intros Hx ins es p. induction n as [|n IH]; intros i dst; [apply le_refl|]. cbn [exec_elems].
    apply le_bind; [apply Hx | intros d; apply IH].
  Qed.

  Lemma exec_array_mono ex ex' : le_ex ex ex' -> forall ins es n isba p dst,
    le_res (exec_array o m ex ins es n isba p dst) (exec_array o m ex' ins es n isba p dst).
  Proof.
    intros Hx ins es n isba p dst. unfold exec_array. destruct (isba && has (o_flags o) byteArrayAsString); [apply le_refl | apply exec_elems_mono, Hx].
  Qed.

  Definition le_entry (e e' : entry) : Prop := le_fun (fst e) (fst e') /\ le_fun (snd e) (snd e').

  Lemma exec_unsorted_mono es es' : Forall2 le_entry es es' -> forall first dst,
    le_res (exec_unsorted es first dst) (exec_unsorted es' first dst).
  Proof.
    induction 1 as [|[ke ve] [ke' ve'] es es' [Hk Hv] _ IH]; intros first dst; [apply le_refl|]. cbn [exec_unsorted].
    apply le_bind; [apply Hk|]. intros d. apply le_bind; [apply Hv|]. intros d'. apply IH.
  Qed.

  Lemma fill_mono es es' : Forall2 le_entry es es' -> forall buf kvs, fill es buf kvs <> FFuel -> fill es' buf kvs = fill es buf kvs.
  Proof.
    induction 1 as [|[ke ve] [ke' ve'] es es' [Hk Hv] _ IH]; intros buf kvs Hn; [reflexivity|]. cbn [fill fst snd] in *.
    destruct (ke buf) as [b1 [e|]| |] eqn:Ek; try congruence; rewrite (Hk buf) by (cbn [fst]; rewrite Ek; discriminate); cbn [fst]; rewrite Ek; try reflexivity.
    destruct (length b1 <? length buf + 2); [reflexivity|].
    destruct (ve (b1 ++ [58%Z])) as [b2 [e|]| |] eqn:Ev; try congruence; rewrite (Hv (b1 ++ [58%Z])) by (cbn [snd]; rewrite Ev; discriminate); cbn [snd]; rewrite Ev; try reflexivity.
    apply IH, Hn.
  Qed.

  Lemma exec_entries_mono es es' : Forall2 le_entry es es' -> forall dst,
    le_res (exec_entries H o es dst) (exec_entries H o es' dst).
  Proof.
    intros He dst. unfold exec_entries. apply le_bind; [|intros; apply le_refl].
    destruct (has (o_flags o) unsortedMap); [apply exec_unsorted_mono, He|].
    unfold exec_sorted. intros Hn. rewrite (fill_mono _ _ He); [reflexivity|]. intros C. rewrite C in Hn. congruence.
  Qed.

  Lemma Forall2_map_same {A B} (R : B -> B -> Prop) (f g : A -> B) l : (forall x, R (f x) (g x)) -> Forall2 R (map f l) (map g l).
  Proof. intros Hr. induction l; constructor; auto. Qed.

  Lemma sync_key_mono any any' k : (forall t w, le_fun (any t w) (any' t w)) -> le_fun (sync_key H o m any k) (sync_key H o m any' k).
  Proof.
    intros Ha dst. unfold sync_key. destruct k as [[kt w]|]; [|apply le_refl].
    destruct (_ && _ && _); [apply le_refl|]. apply le_bind; [|intros; apply le_refl].
    destruct (isString (h_env H) kt); [apply le_refl | apply Ha].
  Qed.

  Lemma sync_val_mono any any' v : (forall t w, le_fun (any t w) (any' t w)) -> le_fun (sync_val any v) (sync_val any' v).
  Proof. intros Ha dst. unfold sync_val. destruct v as [[vt w]|]; [apply Ha | apply le_refl]. Qed.

  Lemma exec_mono_S f : forall f', f <= f' -> le_ex (exec H o m f) (exec H o m f').
  Proof.
    induction f as [|f IH]; intros f' Hf i p dst; [intros C; cbn in C; congruence|]. destruct f' as [|f']; [lia|].
    assert (Hx : le_ex (exec H o m f) (exec H o m f')) by (apply IH; lia).
    assert (Ha : forall t w, le_fun
              (fun dst => match cached_instr H f t with Some i => exec H o m f i (LMem w) dst | None => OutOfFuel end)
              (fun dst => match cached_instr H f' t with Some i => exec H o m f' i (LMem w) dst | None => OutOfFuel end)).
    { intros t w d. destruct (cached_instr H f t) eqn:Ec; [|intros C; congruence]. rewrite (cached_mono _ f' _ _ Ec) by lia. apply Hx. }
    cbn [exec]. destruct i; try apply le_refl.
    - apply le_onSome. intros [[t w]|]; [apply Ha | apply le_refl].
    - destruct (rd m p) as [[]|]; try apply le_refl. apply exec_entries_mono. apply Forall2_map_same.
      intros [k v]. split; cbn [fst snd]; [apply sync_key_mono | apply sync_val_mono]; exact Ha.
    - destruct (rd_word m p) as [[]|]; try apply le_refl. apply Hx.
    - destruct (struct_body H f t canAddr) eqn:Es; [|intros C; congruence]. rewrite (struct_body_mono _ f' _ _ _ Es) by lia.
      apply exec_fields_mono, Hx.
    - apply exec_array_mono, Hx.
    - apply le_onSome. intros [a n]. destruct (a =? 0)%Z; [apply le_refl|]. destruct (n =? 0)%Z; [apply le_refl|]. apply exec_array_mono, Hx.
    - destruct (rd_word m p) as [[]|]; try apply le_refl. destruct (m a) as [[]|]; try apply le_refl.
      destruct (length es =? 0); [apply le_refl|]. apply exec_entries_mono. apply Forall2_map_same.
      intros [k v]. split; apply Hx.
    - destruct p; [apply Hx | apply le_refl].
    - apply le_bind; [apply Hx | intros; apply le_refl].
    - apply le_onSome. intros [|]; [apply le_refl | apply Hx].
  Qed.

  Lemma exec_mono f f' i p dst r : exec H o m f i p dst = r -> r <> OutOfFuel -> f <= f' -> exec H o m f' i p dst = r.
  Proof. intros <- Hn Hf. apply (exec_mono_S f f' Hf). exact Hn. Qed.

  Lemma append_json_mono f f' v dst r : append_json H o m f v dst = r -> r <> OutOfFuel -> f <= f' -> append_json H o m f' v dst = r.
  Proof.
    unfold append_json. intros <- Hn Hf. destruct (cached_instr H f (fst v)) eqn:Ec; [|congruence].
    rewrite (cached_mono _ f' _ _ Ec Hf). eapply exec_mono; eauto.
  Qed.
End Mono.
