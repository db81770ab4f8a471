(** Running instructions on slices: whatever the other goroutines do, the
    result is the one [exec] gives. *)
From Coq Require Import Permutation.
From Verif Require Import Base IntModel JsonSpec OptionsModel EscapeModel TypesModel TypesFacts TagsModel TimeModel FloatModel LeafModel Base64Model Base64Proof MemModel FieldsModel FieldsProof FieldsThm InstrModel ExecModel ValueModel ExecMono ExecLeaf ExecProof HostFacts AppendThm EntriesFacts ConcModel ConcLogic ConcHeap ConcBuild.

(** The dynamic types found in memory are types of the program. *)
Definition mem_types_ok (H : host) (m : mem) : Prop :=
  (forall p t w, rd_eface m p = Some (Some (t, w)) -> typ_ok (h_letter H) (h_udigit H) t) /\
  (forall p es k v t w, rd m p = Some (CSync es) -> In (k, v) es -> k = Some (t, w) \/ v = Some (t, w) -> typ_ok (h_letter H) (h_udigit H) t).

Section Run.
  Variable H : host.
  Hypothesis OK : host_builds H.
  Hypothesis FR : finite_refs (h_env H).
  Variable o : encOpts.
  Variable m : mem.
  Hypothesis MB : mem_bytes_ok m.
  Hypothesis MA : methods_append H m.
  Hypothesis MT : mem_types_ok H m.
  Notation E := (h_env H).
  Notation tok := (typ_ok (h_letter H) (h_udigit H)).

  (** The outcome of a run that started with slice [s]. *)
  Definition rpost (W0 : keys) (L : lheap) (s : slice) (r : res) : post sres := fun x W own L' =>
    own = [] /\ kincl W0 W /\
    match r with
    | Ret b err => exists s', x = Some (s', err) /\ holds L' s' b /\ ext L s L' s'
    | Crash => x = None /\ pres L L' s
    | OutOfFuel => False
    end.
  (** [p s] does what [e d] says, from any slice that holds [d]. *)
  Definition does (W : keys) (p : slice -> prog sres) (e : bytes -> res) : Prop :=
    forall W' L s d, kincl W W' -> holds L s d -> e d <> OutOfFuel -> good H (rpost W' L s (e d)) W' [] L (p s).

  Lemma rpost_ext W0 W1 L0 s0 L s r x W own L' : kincl W0 W1 -> ext L0 s0 L s -> rpost W1 L s r x W own L' -> rpost W0 L0 s0 r x W own L'.
  Proof.
    intros HW He (A & B & C). split; [exact A|]. split; [eapply kincl_trans; eauto|]. destruct r as [b err| |]; [|destruct C as [C D]; split; [exact C | eapply ext_pres; eauto] | exact C].
    destruct C as (s' & C1 & C2 & C3). exists s'. split; [exact C1|]. split; [exact C2|]. eapply ext_trans; eauto.
  Qed.
  Lemma does_mono W W' p e : kincl W W' -> does W p e -> does W' p e.
  Proof. intros HW Hd W2 L s d HW2. apply Hd. eapply kincl_trans; eauto. Qed.

  Lemma post_ret W0 W L0 s0 L s b err : kincl W0 W -> holds L s b -> ext L0 s0 L s -> good H (rpost W0 L0 s0 (Ret b err)) W [] L (PRet (s, err)).
  Proof. intros HW Hh He. apply good_ret. split; [reflexivity|]. split; [exact HW|]. exists s. auto. Qed.
  Lemma post_crash W0 W L0 s0 L : kincl W0 W -> pres L0 L s0 -> good H (rpost W0 L0 s0 Crash) W [] L PPanic.
  Proof. intros HW Hp. apply good_panic. split; [reflexivity|]. auto. Qed.
  Lemma emit_good W0 W L0 s0 L s d b : kincl W0 W -> holds L s d -> ext L0 s0 L s -> good H (rpost W0 L0 s0 (Ret (d ++ b) None)) W [] L (emit s b).
  Proof.
    intros HW Hh He. unfold emit. eapply good_append; [exact Hh|]. intros W' L' s' HW' Hh' He'. apply post_ret; auto.
    - eapply kincl_trans; eauto.
    - eapply ext_trans; eauto.
  Qed.

  (** Running a part, then going on. *)
  Lemma run_then {A} (Q : post A) W0 W L0 s0 L s p r (k : sres -> prog A) : kincl W0 W -> ext L0 s0 L s ->
    good H (rpost W L s r) W [] L p ->
    (forall b err W' L' s', r = Ret b err -> kincl W W' -> holds L' s' b -> ext L s L' s' -> good H Q W' [] L' (k (s', err))) ->
    (r = Crash -> forall W' L', kincl W W' -> pres L L' s -> Q None W' [] L') ->
    good H Q W [] L (pbind p k).
  Proof.
    intros HW He Hp Hk Hc. eapply good_bind; [exact Hp| |].
    - intros [s' err] W' own' L' (-> & HW' & C). destruct r as [b err'| |]; [|destruct C as [C _]; discriminate | destruct C].
      destruct C as (s2 & [= -> ->] & C2 & C3). eapply Hk; eauto.
    - intros W' own' L' (-> & HW' & C). destruct r as [b err'| |]; [destruct C as (s2 & X & _); discriminate | destruct C as [_ C]; auto | destruct C].
  Qed.
  Lemma thens_good W0 W L0 s0 L s p r k e : kincl W0 W -> ext L0 s0 L s -> bind r e <> OutOfFuel ->
    good H (rpost W L s r) W [] L p ->
    (forall b W' L' s', r = Ret b None -> e b <> OutOfFuel -> kincl W W' -> kincl W0 W' -> holds L' s' b -> ext L0 s0 L' s' -> good H (rpost W0 L0 s0 (e b)) W' [] L' (k s')) ->
    good H (rpost W0 L0 s0 (bind r e)) W [] L (thens p k).
  Proof.
    intros HW He Hf Hp Hk. unfold thens. eapply run_then; [exact HW | exact He | exact Hp| |].
    - intros b err W' L' s' -> HW' Hh' He'. cbn [bind] in *. assert (kincl W0 W') by (eapply kincl_trans; eauto). assert (ext L0 s0 L' s') by (eapply ext_trans; eauto). destruct err as [er|].
      + apply post_ret; auto.
      + apply Hk; auto.
    - intros -> W' L' HW' Hp'. split; [reflexivity|]. split; [eapply kincl_trans; eauto|]. split; [reflexivity | eapply ext_pres; eauto].
  Qed.

  Lemma does_run W c p f : (forall L s d W', kincl W W' -> holds L s d -> f d <> OutOfFuel -> good H (rpost W' L s (f d)) W' [] L (run_body H o m c p s)) ->
    does W (fun s => PRun o m c p s PRet) f.
  Proof.
    intros Hr W' L s d HW Hh Hf. apply good_run. eapply (run_then _ W' W' L s L s); [apply kincl_refl | apply ext_refl | apply Hr; eauto| |].
    - intros b err W2 L2 s2 -> HW2 Hh2 He2. apply post_ret; auto.
    - intros -> W2 L2 HW2 Hp. split; [reflexivity|]. auto.
  Qed.

  (** ** Leaves *)
  Lemma leaf_res_good W L s d r : holds L s d -> app_res d r <> OutOfFuel -> good H (rpost W L s (app_res d r)) W [] L (leaf_res r s).
  Proof.
    intros Hh Hf. destruct r as [b err| |]; cbn [leaf_res app_res] in *.
    - eapply good_writes; [exact Hh|]. intros W' L' s' HW' Hh' He'. apply post_ret; auto.
    - apply post_crash; [apply kincl_refl | apply pres_refl].
    - congruence.
  Qed.
  Lemma appends_nil e d : appends e -> e d = app_res d (e []).
  Proof. intros He. rewrite <- (app_nil_r d) at 1. apply He. Qed.

  Lemma byte_slice_good W L s d v : holds L s d -> (forall b, v = Some b -> bytes_ok b) ->
    good H (rpost W L s (Ret (encode_byte_slice v d o) None)) W [] L (byte_slice_prog o v s).
  Proof.
    intros Hh Hv. unfold byte_slice_prog, encode_byte_slice. destruct v as [b|]; [|apply emit_good; [apply kincl_refl | exact Hh | apply ext_refl]].
    specialize (Hv b eq_refl). eapply good_append; [exact Hh|]. intros W1 L1 s1 HW1 Hh1 He1.
    destruct (has (o_flags o) rawByteSlice).
    { eapply good_writes; [exact Hh1|]. intros W2 L2 s2 HW2 Hh2 He2. rewrite escaped_app by exact Hv. apply emit_good; [eapply kincl_trans; eauto | exact Hh2 | eapply ext_trans; eauto]. }
    assert (Hn : Z.to_nat (b64_len (Z.of_nat (length b))) = length (base64 b)).
    { rewrite <- (base64_text_length _ _ (base64_correct b Hv)). lia. }
    rewrite Hn. clear Hn. set (t := base64 b).
    (* writing, when there is room *)
    assert (Wr : forall W3 L3 s3, kincl W W3 -> holds L3 s3 (d ++ [34]) -> ext L s L3 s3 -> (forall c, L3 (s_arr s3) = Some c -> (s_len s3 + length t <= length c)%nat) ->
      good H (rpost W L s (Ret (d ++ [34] ++ t ++ [34]) None)) W3 [] L3
        (PCap s3 (fun cap => if (cap <? s_len s3 + length t)%nat || (length t <? length t)%nat then PPanic
           else PWrite (mkSl (s_arr s3) (s_len s3 + length t)) (s_len s3) t (emit (mkSl (s_arr s3) (s_len s3 + length t)) [34])))).
    { intros W3 L3 s3 HW3 Hh3 He3 Hroom. eapply good_cap; [exact Hh3|]. intros W4 r HW4 Hr. assert (Hl := Hroom _ Hr). assert (Hs3 := proj1 Hh3).
      replace (length ((d ++ [34%Z]) ++ r) <? s_len s3 + length t)%nat with false by lia. replace (length t <? length t)%nat with false by lia. cbn [orb].
      assert (Hlr : (length t <= length r)%nat) by (rewrite app_length in Hl; lia).
      eapply (good_write H _ _ _ _ _ _ _ ((d ++ [34]) ++ firstn (length t) r)).
      - split; cbn [s_len s_arr]; [rewrite app_length, firstn_length; lia|]. exists (skipn (length t) r). rewrite Hr. rewrite <- (app_assoc (d ++ [34]) (firstn (length t) r)), firstn_skipn. reflexivity.
      - cbn [s_len]. lia.
      - intros W5 HW5 r' Hr'. cbn [s_arr] in *. rewrite Hr in Hr'.
        assert (Eq : ((d ++ [34]) ++ firstn (length t) r) ++ r' = (d ++ [34]) ++ r) by congruence. rewrite Eq. rewrite Hs3, overwrite_at by exact Hlr.
        replace (d ++ [34] ++ t ++ [34]) with (((d ++ [34]) ++ t) ++ [34]) by (rewrite <- !app_assoc; reflexivity).
        assert (Hs4 : s_len s3 = length (d ++ [34])) by exact Hs3.
        apply emit_good; [do 2 (eapply kincl_trans; eauto)| |].
        + split; cbn [s_len s_arr]; [rewrite (app_length (d ++ [34]) t); lia|]. rewrite lset_same. eexists. rewrite <- (app_assoc (d ++ [34]) t). reflexivity.
        + eapply ext_trans; [exact He3|]. split; [|split; [left; reflexivity | cbn [s_len]; lia]]. eapply pres_write; [exact Hr | |].
          * rewrite !app_length, skipn_length. lia.
          * rewrite Hs4, !firstn_app, Nat.sub_diag, !firstn_O, !app_nil_r. reflexivity. }
    eapply good_cap; [exact Hh1|]. intros W2 r HW2 Hr. assert (Hs1 := proj1 Hh1). assert (HWW2 : kincl W W2) by (eapply kincl_trans; eauto).
    assert (Hcap : length ((d ++ [34]) ++ r) = (s_len s1 + length r)%nat) by (rewrite (app_length (d ++ [34]) r); lia).
    destruct (length ((d ++ [34%Z]) ++ r) - s_len s1 <? length t)%nat eqn:Eroom.
    - apply good_make. intros W3 a HW3 Ha. assert (Hne : a <> s_arr s1) by congruence.
      set (big := (length ((d ++ [34%Z]) ++ r) + (length t - (length ((d ++ [34%Z]) ++ r) - s_len s1)))%nat).
      assert (Hbig : (s_len s1 + length t <= big)%nat) by (unfold big; lia).
      eapply (good_copy H _ _ _ _ _ _ (d ++ [34]) (repeat 0 big)).
      + cbn [s_arr]. apply lset_same.
      + eapply holds_same; [apply same_set; exact Ha | exact Hh1].
      + cbn [s_len]. lia.
      + cbn [s_len]. rewrite repeat_length. lia.
      + cbn [s_arr]. exact Hne.
      + intros W4 HW4. cbn [s_arr]. apply Wr.
        * do 2 (eapply kincl_trans; eauto).
        * split; cbn [s_len s_arr]; [exact Hs1|]. rewrite lset_same. eauto.
        * eapply ext_trans; [exact He1|]. split; [|cbn [s_arr s_len]; split; [right; exact Ha | lia]]. apply pres_same. intros x y Hx. assert (x <> a) by congruence. rewrite !lset_other by assumption. exact Hx.
        * cbn [s_arr s_len]. intros c. rewrite lset_same. intros [= <-]. rewrite (app_length (d ++ [34])), skipn_length, repeat_length. lia.
    - apply Wr; auto. intros c Hc. rewrite Hr in Hc. injection Hc as <-. lia.
  Qed.

  Lemma call_good W L s d k t td w : holds L s d -> call_method H o m k t td w d <> OutOfFuel ->
    good H (rpost W L s (call_method H o m k t td w d)) W [] L (call_prog H o m k t td w s).
  Proof.
    intros Hh Hf. unfold call_prog. unfold call_method in *. assert (M := MA k td w (match k with MCtx => o_ctx o | _ => None end)).
    assert (Usr : forall r : option (bytes + Z), onSome (match r with Some (inl b) => Some (inl (d ++ b)) | Some (inr z) => Some (inr z) | None => None end) (fun r => match r with inl x => Ret x None | inr e => Ret d (Some (EMarshaler t k (IUser e))) end) <> OutOfFuel ->
      good H (rpost W L s (onSome (match r with Some (inl b) => Some (inl (d ++ b)) | Some (inr z) => Some (inr z) | None => None end) (fun r => match r with inl x => Ret x None | inr e => Ret d (Some (EMarshaler t k (IUser e))) end))) W [] L
        (match r with Some (inl b) => PWrites s b ok_s | Some (inr e) => PSpoil s (PRet (s, Some (EMarshaler t k (IUser e)))) | None => PPanic end)).
    { intros [[b|e]|] _; cbn [onSome].
      - eapply good_writes; [exact Hh|]. intros W' L' s' HW' Hh' He'. apply post_ret; auto.
      - eapply good_spoil; [exact Hh|]. intros W' L' HW' Hp'. apply post_ret; [exact HW' | eapply holds_pres; eauto|]. split; [exact Hp' | auto].
      - apply post_crash; [apply kincl_refl | apply pres_refl]. }
    destruct k.
    - rewrite M in Hf |- *. apply Usr. exact Hf.
    - rewrite M in Hf |- *. apply Usr. exact Hf.
    - destruct (h_call H MJson td w m None []) as [r|] eqn:Er; cbn [onSome] in *; [|apply post_crash; [apply kincl_refl | apply pres_refl]].
      rewrite json_result_app in Hf |- * by (intros b ->; apply M; reflexivity). apply leaf_res_good; assumption.
    - destruct (h_call H MText td w m None []) as [r|] eqn:Er; cbn [onSome] in *; [|apply post_crash; [apply kincl_refl | apply pres_refl]].
      rewrite text_result_app in Hf |- *. apply leaf_res_good; assumption.
  Qed.

  Lemma marshaler_good W L s d k t hp p : holds L s d -> exec_marshaler H o m k t hp p d <> OutOfFuel ->
    good H (rpost W L s (exec_marshaler H o m k t hp p d)) W [] L (marshaler_prog H o m k t hp p s).
  Proof.
    intros Hh. unfold exec_marshaler, marshaler_prog.
    assert (Nul : Ret (d ++ l_null) None <> OutOfFuel -> good H (rpost W L s (Ret (d ++ l_null) None)) W [] L (emit s l_null)).
    { intros _. apply emit_good; [apply kincl_refl | exact Hh | apply ext_refl]. }
    assert (Cr : Crash <> OutOfFuel -> good H (rpost W L s Crash) W [] L PPanic) by (intros _; apply post_crash; [apply kincl_refl | apply pres_refl]).
    assert (Ca : forall t td w, call_method H o m k t td w d <> OutOfFuel -> good H (rpost W L s (call_method H o m k t td w d)) W [] L (call_prog H o m k t td w s)) by (intros; apply call_good; assumption).
    destruct hp; [destruct p as [[|z|z]|]; auto|]. destruct (under E t); auto.
    - match goal with |- match ?x with _ => _ end <> _ -> _ => destruct x as [[[td w]|]|]; auto end.
    - destruct (rd_word m p) as [[| |]|]; auto.
  Qed.

  (** ** Loops *)
  Section Loops.
    Variable f : nat.
    Hypothesis IH : forall c i p s d W L, den H W c i -> holds L s d -> exec H o m f i p d <> OutOfFuel -> good H (rpost W L s (exec H o m f i p d)) W [] L (run_body H o m c p s).

    Lemma sub_does W c i p : den H W c i -> does W (fun s => PRun o m c p s PRet) (exec H o m f i p).
    Proof. intros Hd. apply does_run. intros L s d W' HW Hh Hf. apply IH; auto. eapply den_mono; eauto. Qed.

    Lemma sub_run {A} (Q : post A) W0 W L0 s0 L s d c i p (k : sres -> prog A) : kincl W0 W -> ext L0 s0 L s -> den H W c i -> holds L s d -> exec H o m f i p d <> OutOfFuel ->
      (forall b err W' L' s', exec H o m f i p d = Ret b err -> kincl W W' -> holds L' s' b -> ext L s L' s' -> good H Q W' [] L' (k (s', err))) ->
      (exec H o m f i p d = Crash -> forall W' L', kincl W W' -> pres L L' s -> Q None W' [] L') ->
      good H Q W [] L (PRun o m c p s k).
    Proof. intros HW He Hd Hh Hf Hk Hc. apply good_run. eapply (run_then Q W0 W L0 s0 L s); eauto. Qed.

    Lemma fields_good L0 s0 W0 p : forall fs sfs first W L s d, kincl W0 W -> ext L0 s0 L s -> den_fields H W fs sfs -> holds L s d ->
      exec_fields H o m (exec H o m f) sfs p first d <> OutOfFuel ->
      good H (rpost W0 L0 s0 (exec_fields H o m (exec H o m f) sfs p first d)) W [] L (fields_prog H o m fs p first s).
    Proof.
      induction fs as [|[cm c] fs IHf]; intros [|sf sfs] first W L s d HW He Hd Hh Hf; cbn [den_fields fields_prog exec_fields] in *; try (destruct Hd; fail).
      - destruct first; apply emit_good; assumption.
      - destruct Hd as (-> & Hdc & Hdf). cbn [meta_of cm_name cm_seq cm_omitNil cm_omitNull cm_empty].
        destruct (isDeniedField o (sf_name sf)); [apply IHf; assumption|].
        assert (Cr : good H (rpost W0 L0 s0 Crash) W [] L PPanic) by (apply post_crash; [exact HW | apply He]).
        destruct (follow m (sf_seq sf) p) as [[fp|]|]; cbn [onSome] in *; [|apply IHf; assumption | exact Cr].
        destruct (if sf_omitNil sf then is_nil m fp else Some false) as [[|]|]; cbn [onSome] in *; [apply IHf; assumption | | exact Cr].
        destruct (match sf_empty sf with Some t => is_empty H m t fp | None => Some false end) as [[|]|]; cbn [onSome] in *; [apply IHf; assumption | | exact Cr].
        set (key := if has (o_flags o) noHTMLEscaping then key_raw (sf_name sf) else key_esc (sf_name sf)) in *. set (ch := if first then 123 else 44) in *.
        assert (Hs := proj1 Hh).
        eapply good_append; [exact Hh|]. intros W1 L1 s1 HW1 Hh1 He1. eapply good_append; [exact Hh1|]. intros W2 L2 s2 HW2 Hh2 He2.
        assert (HW02 : kincl W0 W2) by (do 2 (eapply kincl_trans; eauto)). assert (HWW2 : kincl W W2) by (eapply kincl_trans; eauto).
        assert (He02 : ext L0 s0 L2 s2) by (do 2 (eapply ext_trans; eauto)).
        rewrite <- app_assoc in Hh2.
        eapply (sub_run _ W0 W2 L0 s0 L2 s2); [exact HW02 | exact He02 | eapply den_mono; [exact HWW2 | exact Hdc] | exact Hh2 | intros X; rewrite X in Hf; apply Hf; reflexivity | |].
        + intros b err W3 L3 s3 Er HW3 Hh3 He3. rewrite Er in *. cbn [bind] in *. assert (HW03 : kincl W0 W3) by (eapply kincl_trans; eauto). assert (He03 : ext L0 s0 L3 s3) by (eapply ext_trans; eauto).
          destruct err as [er|]; [apply post_ret; auto|].
          assert (Hdf3 : den_fields H W3 fs sfs) by (eapply den_fields_mono; [|exact Hdf]; eapply kincl_trans; eauto).
          destruct (sf_omitNull sf); cbn [andb] in *; [|apply IHf; auto].
          eapply good_read; [exact Hh3|]. intros W4 HW4. assert (HW04 : kincl W0 W4) by exact (kincl_trans _ _ _ HW03 HW4). assert (Hdf4 : den_fields H W4 fs sfs) by exact (den_fields_mono H W3 W4 fs sfs HW4 Hdf3).
          destruct (ends_null b); [|apply IHf; auto].
          assert (Hlast : (if first then S (s_len s) else s_len s) = if first then S (length d) else length d) by (destruct first; lia). rewrite Hlast.
          assert (Hl1 : (S (length d) <= s_len s3)%nat).
          { destruct He2 as (_ & _ & N2), He3 as (_ & _ & N3). assert (N1 := proj1 Hh1). rewrite app_length in N1. cbn [length] in N1. lia. }
          assert (Hl0 : (s_len s0 <= length d)%nat) by (destruct He as (_ & _ & N); lia).
          apply IHf; auto.
          * apply ext_cut; [exact He03|]. destruct first; lia.
          * apply holds_cut; [exact Hh3|]. destruct first; lia.
        + intros Er W3 L3 HW3 Hp. rewrite Er. cbn [bind]. split; [reflexivity|]. split; [eapply kincl_trans; eauto|]. split; [reflexivity | eapply ext_pres; eauto].
    Qed.

    Lemma elems_good L0 s0 W0 c ins es p : forall n i W L s d, kincl W0 W -> ext L0 s0 L s -> den H W c ins -> holds L s d ->
      exec_elems (exec H o m f) ins es p n i d <> OutOfFuel ->
      good H (rpost W0 L0 s0 (exec_elems (exec H o m f) ins es p n i d)) W [] L (elems_prog o m c es p n i s).
    Proof.
      induction n as [|n IHn]; intros i W L s d HW He Hd Hh Hf; cbn [elems_prog exec_elems] in *.
      - destruct (i =? 0); apply emit_good; assumption.
      - eapply good_append; [exact Hh|]. intros W1 L1 s1 HW1 Hh1 He1. assert (HW01 : kincl W0 W1) by (eapply kincl_trans; eauto). assert (He01 : ext L0 s0 L1 s1) by (eapply ext_trans; eauto).
        assert (Hd1 : den H W1 c ins) by exact (den_mono H _ _ HW1 _ _ Hd).
        eapply thens_good; [exact HW01 | exact He01 | exact Hf | |].
        + refine (sub_does W1 c ins _ Hd1 W1 L1 s1 _ (kincl_refl _) Hh1 _). intros X. rewrite X in Hf. apply Hf. reflexivity.
        + intros b W2 L2 s2 _ Hf2 HW12 HW2 Hh2 He2. apply IHn; auto.
          (* the closure stays in the cache *)
          exact (den_mono H _ _ HW12 _ _ Hd1).
    Qed.

    Lemma array_good W L s d c ins es n isba p : den H W c ins -> holds L s d -> exec_array o m (exec H o m f) ins es n isba p d <> OutOfFuel ->
      good H (rpost W L s (exec_array o m (exec H o m f) ins es n isba p d)) W [] L (array_prog o m c es n isba p s).
    Proof.
      intros Hd Hh Hf. unfold exec_array, array_prog in *. destruct (isba && has (o_flags o) byteArrayAsString).
      - destruct p as [a|w off].
        + destruct (rd_bytes m a n) as [b|] eqn:Eb; cbn [onSome] in *; [|apply post_crash; [apply kincl_refl | apply pres_refl]].
          eapply good_append; [exact Hh|]. intros W1 L1 s1 HW1 Hh1 He1. eapply good_writes; [exact Hh1|]. intros W2 L2 s2 HW2 Hh2 He2.
          rewrite (escaped_app (d ++ [34])) by (eapply rd_bytes_ok; eauto). apply emit_good; [exact (kincl_trans _ _ _ HW1 HW2) | exact Hh2 | exact (ext_trans _ _ _ _ _ _ He1 He2)].
        + destruct n; [|apply post_crash; [apply kincl_refl | apply pres_refl]]. apply emit_good; [apply kincl_refl | exact Hh | apply ext_refl].
      - apply elems_good; auto. apply ext_refl.
    Qed.

    (** appendJSON *)
    Definition any_of (t : typ) (w : Z) (d : bytes) : res := match cached_instr H f t with Some i => exec H o m f i (LMem w) d | None => OutOfFuel end.
    Lemma any_does W t w : tok t -> does W (any_prog H o m t w) (any_of t w).
    Proof.
      intros Tt W' L s d HW Hh Hf. unfold any_prog, any_of in *. destruct (cached_instr H f t) as [i|] eqn:Ei; [|congruence].
      eapply good_bind; [apply (cached_ok H OK FR t W' [] L Tt)| |].
      - intros c W1 own1 L1 (-> & -> & HW1 & c' & [= <-] & n & i' & Hi' & Hd).
        assert (i' = i). { assert (X := cached_mono H _ (Nat.max n f) _ _ Hi'). assert (Y := cached_mono H _ (Nat.max n f) _ _ Ei). rewrite X in Y by lia. specialize (Y ltac:(lia)). congruence. } subst i'.
        eapply good_conseq; [apply (sub_does W1 c i (LMem w) Hd W1 L s d (kincl_refl _) Hh Hf)|]. intros x W2 own2 L2. apply rpost_ext; [exact HW1 | apply ext_refl].
      - intros W1 own1 L1 (_ & _ & _ & c' & X & _). discriminate.
    Qed.
  End Loops.

  (** ** Entries of maps *)
  Definition edoes (W : keys) (ep : entry_prog) (e : entry) : Prop := does W (fst ep) (fst e) /\ does W (snd ep) (snd e).
  Lemma edoes_mono W W' eps es : kincl W W' -> Forall2 (edoes W) eps es -> Forall2 (edoes W') eps es.
  Proof. intros HW. induction 1 as [|x y l l' [A B] _ IH]; constructor; auto. split; eapply does_mono; eauto. Qed.

  Lemma unsorted_good L0 s0 W0 eps es : forall first W L s d, Forall2 (edoes W0) eps es -> kincl W0 W -> ext L0 s0 L s -> holds L s d -> exec_unsorted es first d <> OutOfFuel ->
    good H (rpost W0 L0 s0 (exec_unsorted es first d)) W [] L (unsorted_prog eps first s).
  Proof.
    intros first W L s d HF. revert first W L s d. induction HF as [|[kp vp] [ke ve] eps es [Hk Hv] HF IH]; intros first W L s d HW He Hh Hf; cbn [unsorted_prog exec_unsorted fst snd] in *; [apply post_ret; auto|].
    assert (Go : forall W1 L1 s1 d1, kincl W0 W1 -> ext L0 s0 L1 s1 -> holds L1 s1 d1 -> bind (ke d1) (fun d2 => bind (ve (d2 ++ [58])) (exec_unsorted es false)) <> OutOfFuel ->
      good H (rpost W0 L0 s0 (bind (ke d1) (fun d2 => bind (ve (d2 ++ [58])) (exec_unsorted es false)))) W1 [] L1 (thens (kp s1) (fun s2 => PAppend s2 [58] (fun s3 => thens (vp s3) (unsorted_prog eps false))))).
    { intros W1 L1 s1 d1 HW1 He1 Hh1 Hf1. eapply thens_good; [exact HW1 | exact He1 | exact Hf1 | apply Hk; [exact HW1 | exact Hh1 | intros X; rewrite X in Hf1; apply Hf1; reflexivity]|].
      intros b W2 L2 s2 Er Hf2 HW12 HW2 Hh2 He2. eapply good_append; [exact Hh2|]. intros W3 L3 s3 HW3 Hh3 He3.
      assert (HW03 : kincl W0 W3) by exact (kincl_trans _ _ _ HW2 HW3). assert (He03 : ext L0 s0 L3 s3) by exact (ext_trans _ _ _ _ _ _ He2 He3).
      eapply thens_good; [exact HW03 | exact He03 | exact Hf2 | apply Hv; [exact HW03 | exact Hh3 | intros X; rewrite X in Hf2; apply Hf2; reflexivity]|].
      intros b2 W4 L4 s4 Er2 Hf4 HW34 HW4 Hh4 He4. apply IH; auto. }
    destruct first; [apply Go; auto|]. eapply good_append; [exact Hh|]. intros W1 L1 s1 HW1 Hh1 He1. apply Go; auto; [exact (kincl_trans _ _ _ HW HW1) | exact (ext_trans _ _ _ _ _ _ He He1)].
  Qed.

  (** A piece of the buffer [s], or of an array it has left behind. *)
  Definition sub_ok (Lb L : lheap) (s : slice) (r : sub) : Prop :=
    Lb (r_arr r) = None /\ exists c, L (r_arr r) = Some c /\ (r_hi r <= length c)%nat /\ (r_arr r = s_arr s -> (r_hi r <= s_len s)%nat).
  Definition subs_ok (Lb L : lheap) (s : slice) (mel : list kvsub) : Prop := Forall (fun kv => sub_ok Lb L s (fst kv) /\ sub_ok Lb L s (snd kv)) mel.

  Lemma firstn_skipn_cut (c c' : bytes) n lo hi : (hi <= n)%nat -> firstn n c' = firstn n c -> firstn (hi - lo) (skipn lo c') = firstn (hi - lo) (skipn lo c).
  Proof.
    intros Hn Hc. assert (G : forall x : bytes, firstn (hi - lo) (skipn lo x) = firstn (hi - lo) (skipn lo (firstn n x))).
    { intros x. rewrite skipn_firstn_comm, firstn_firstn. f_equal. lia. }
    rewrite (G c), (G c'), Hc. reflexivity.
  Qed.
  Lemma sub_ext Lb L s L' s' r : sub_ok Lb L s r -> ext L s L' s' -> sub_ok Lb L' s' r /\ lread L' r = lread L r.
  Proof.
    intros (Hb & c & Hc & Hl & Hs) (P & A & N). destruct (P _ _ Hc) as [P1 P2]. unfold lread, read_sub. destruct (Nat.eq_dec (r_arr r) (s_arr s)) as [Er|Hne].
    - destruct (P2 Er) as (c' & X1 & X2 & X3). rewrite X1, Hc. split; [split; [exact Hb|]; exists c'; split; [exact X1|]; split; [lia|]; intros _; specialize (Hs Er); lia|].
      eapply firstn_skipn_cut; [apply Hs, Er | exact X3].
    - rewrite (P1 Hne), Hc. split; [|reflexivity]. split; [exact Hb|]. exists c. split; [auto|]. split; [exact Hl|]. intros Er. destruct A as [A|A]; congruence.
  Qed.
  Lemma subs_ext Lb L s L' s' mel : subs_ok Lb L s mel -> ext L s L' s' -> subs_ok Lb L' s' mel /\ map (lread_kv L') mel = map (lread_kv L) mel.
  Proof.
    intros Hm He. induction Hm as [|[k v] mel [A B] _ [I1 I2]]; [split; [constructor | reflexivity]|]. cbn [fst snd] in *.
    destruct (sub_ext _ _ _ _ _ _ A He) as [A1 A2]. destruct (sub_ext _ _ _ _ _ _ B He) as [B1 B2]. split; [constructor; auto|].
    cbn [map]. rewrite I2. f_equal. unfold lread_kv. cbn [fst snd]. rewrite A2, B2. reflexivity.
  Qed.

  Lemma lread_holds L s b lo hi : holds L s b -> (hi <= length b)%nat -> lread L (mkSub (s_arr s) lo hi) = firstn (hi - lo) (skipn lo b).
  Proof.
    intros (Hl & r & Hr) Hh. unfold lread, read_sub. cbn [r_arr r_lo r_hi]. rewrite Hr. symmetry. eapply (firstn_skipn_cut (b ++ r) b (length b)); [exact Hh|].
    rewrite firstn_app, Nat.sub_diag, firstn_O, app_nil_r. reflexivity.
  Qed.
  Lemma sub_ok_of Lb L s b lo hi : holds L s b -> Lb (s_arr s) = None -> (hi <= length b)%nat -> sub_ok Lb L s (mkSub (s_arr s) lo hi).
  Proof.
    intros (Hl & r & Hr) Hb Hh. split; [exact Hb|]. exists (b ++ r). cbn [r_arr r_hi]. split; [exact Hr|]. rewrite app_length. split; [lia|]. intros _. lia.
  Qed.

  Definition fpost (W0 : keys) (Lb L : lheap) (s : slice) (r : fill_res) : post (slice * list kvsub * option gerr) := fun x W own L' =>
    own = [] /\ kincl W0 W /\
    match r with
    | FOk kvs => exists s' mel b, x = Some (s', mel, None) /\ ext L s L' s' /\ holds L' s' b /\ subs_ok Lb L' s' mel /\ map (lread_kv L') mel = kvs
    | FErr e => exists s' mel b, x = Some (s', mel, Some e) /\ ext L s L' s' /\ holds L' s' b
    | FCrash => x = None /\ pres L L' s
    | FFuel => False
    end.

  Lemma fill_good Lb L0 s0 W0 eps es : Forall2 (edoes W0) eps es -> forall W L s b mel kvs, kincl W0 W -> ext L0 s0 L s -> holds L s b -> subs_ok Lb L s mel -> map (lread_kv L) mel = kvs ->
    Lb (s_arr s) = None -> (forall a, L a = None -> Lb a = None) -> fill es b kvs <> FFuel ->
    good H (fpost W0 Lb L0 s0 (fill es b kvs)) W [] L (fill_prog eps (s_len s) s mel).
  Proof.
    intros HF. induction HF as [|[kp vp] [ke ve] eps es [Hk Hv] HF IH]; intros W L s b mel kvs HW He Hh Hm Hkv Hb HLb Hf; cbn [fill_prog fill fst snd] in *.
    - apply good_ret. split; [reflexivity|]. split; [exact HW|]. exists s, mel, b. auto.
    - assert (Hs := proj1 Hh). rewrite <- Hs in *.
      assert (Nx : forall L1 s1 (L2 : lheap) s2, Lb (s_arr s1) = None -> (forall a, L1 a = None -> Lb a = None) -> ext L1 s1 L2 s2 -> Lb (s_arr s2) = None /\ (forall a, L2 a = None -> Lb a = None)).
      { intros L1 s1 L2 s2 A1 A2 (P & B & N). split; [destruct B as [->|B]; auto|]. intros a Ha. apply A2. eapply pres_none; eauto. }
      eapply (run_then _ W0 W L0 s0 L s _ (ke b)); [exact HW | exact He | apply Hk; [exact HW | exact Hh | intros X; rewrite X in Hf; apply Hf; reflexivity]| |].
      + intros b1 err W1 L1 s1 Er HW1 Hh1 He1. rewrite Er in *. assert (HW01 : kincl W0 W1) by exact (kincl_trans _ _ _ HW HW1). assert (He01 : ext L0 s0 L1 s1) by exact (ext_trans _ _ _ _ _ _ He He1).
        destruct err as [er|]. { apply good_ret. split; [reflexivity|]. split; [exact HW01|]. exists s1, mel, b1. auto. }
        assert (Hs1 := proj1 Hh1). rewrite Hs1 in *. destruct (length b1 <? s_len s + 2)%nat eqn:El.
        { apply good_panic. split; [reflexivity|]. split; [exact HW01|]. split; [reflexivity | apply He01]. }
        destruct (Nx _ _ _ _ Hb HLb He1) as [Hb1 HLb1].
        set (key := mkSub (s_arr s1) (s_len s + 1) (length b1 - 1)).
        assert (Hkey : sub_ok Lb L1 s1 key) by (eapply sub_ok_of; eauto; lia).
        assert (Rkey : lread L1 key = firstn (length b1 - 2 - s_len s) (skipn (s_len s + 1) b1)).
        { unfold key. rewrite (lread_holds L1 s1 b1) by (auto; lia). f_equal. lia. }
        destruct (subs_ext _ _ _ _ _ _ Hm He1) as [Hm1 Hkv1].
        eapply good_append; [exact Hh1|]. intros W2 L2 s2 HW2 Hh2 He2. assert (HW02 : kincl W0 W2) by exact (kincl_trans _ _ _ HW01 HW2). assert (He02 : ext L0 s0 L2 s2) by exact (ext_trans _ _ _ _ _ _ He01 He2).
        destruct (Nx _ _ _ _ Hb1 HLb1 He2) as [Hb2 HLb2]. destruct (sub_ext _ _ _ _ _ _ Hkey He2) as [Hkey2 Rkey2]. destruct (subs_ext _ _ _ _ _ _ Hm1 He2) as [Hm2 Hkv2].
        eapply (run_then _ W0 W2 L0 s0 L2 s2 _ (ve (b1 ++ [58]))); [exact HW02 | exact He02 | apply Hv; [exact HW02 | exact Hh2 | intros X; rewrite X in Hf; apply Hf; reflexivity]| |].
        * intros b3 err W3 L3 s3 Er3 HW3 Hh3 He3. rewrite Er3 in *. assert (HW03 : kincl W0 W3) by exact (kincl_trans _ _ _ HW02 HW3). assert (He03 : ext L0 s0 L3 s3) by exact (ext_trans _ _ _ _ _ _ He02 He3).
          destruct err as [er|]. { apply good_ret. split; [reflexivity|]. split; [exact HW03|]. exists s3, mel, b3. auto. }
          destruct (Nx _ _ _ _ Hb2 HLb2 He3) as [Hb3 HLb3]. destruct (sub_ext _ _ _ _ _ _ Hkey2 He3) as [Hkey3 Rkey3]. destruct (subs_ext _ _ _ _ _ _ Hm2 He3) as [Hm3 Hkv3].
          assert (Hs3 := proj1 Hh3).
          apply IH; auto.
          -- apply Forall_app. split; [exact Hm3|]. constructor; [|constructor]. cbn [fst snd]. split; [exact Hkey3|]. eapply sub_ok_of; eauto. lia.
          -- rewrite map_app. cbn [map]. rewrite Hkv3, Hkv2, Hkv1, Hkv. f_equal. unfold lread_kv. cbn [fst snd]. rewrite Rkey3, Rkey2, Rkey. f_equal. f_equal.
             rewrite (lread_holds L3 s3 b3) by (auto; lia). rewrite Hs3. apply firstn_all2. rewrite skipn_length. lia.
        * intros Er3 W3 L3 HW3 Hp3. rewrite Er3. split; [reflexivity|]. split; [exact (kincl_trans _ _ _ HW02 HW3)|]. split; [reflexivity | eapply ext_pres; eauto].
      + intros Er W1 L1 HW1 Hp1. rewrite Er. split; [reflexivity|]. split; [exact (kincl_trans _ _ _ HW HW1)|]. split; [reflexivity | eapply ext_pres; eauto].
  Qed.

  (** Joining the sorted pieces. *)
  Definition apart (L : lheap) (s : slice) (kv : kvsub) : Prop := L (r_arr (snd kv)) <> None /\ r_arr (snd kv) <> s_arr s.
  Lemma apart_ext L s L' s' kv : apart L s kv -> ext L s L' s' -> apart L' s' kv /\ lread L' (snd kv) = lread L (snd kv).
  Proof.
    intros [A B] (P & C & N). destruct (L (r_arr (snd kv))) as [c|] eqn:Ec; [|congruence]. destruct (P _ _ Ec) as [P1 _]. specialize (P1 B). unfold lread, read_sub. rewrite P1, Ec. split; [|reflexivity].
    split; [congruence|]. intros X. destruct C as [C|C]; congruence.
  Qed.
  Lemma join_good L0 s0 W0 : forall kvs first W L s d, kincl W0 W -> ext L0 s0 L s -> holds L s d -> Forall (apart L s) kvs ->
    good H (fun x W' own L' => own = [] /\ kincl W0 W' /\ exists s', x = Some s' /\ holds L' s' (join_kvs (map (lread_kv L) kvs) first d) /\ ext L s L' s') W [] L (join_prog kvs first s).
  Proof.
    induction kvs as [|[k v] kvs IH]; intros first W L s d HW He Hh Ha; cbn [join_prog map join_kvs lread_kv fst snd].
    - apply good_ret. split; [reflexivity|]. split; [exact HW|]. exists s. split; [reflexivity|]. split; [exact Hh | apply ext_refl].
    - assert (Go : forall W1 L1 s1 d1, kincl W0 W1 -> ext L s L1 s1 -> holds L1 s1 d1 ->
        good H (fun x W' own L' => own = [] /\ kincl W0 W' /\ exists s', x = Some s' /\ holds L' s' (join_kvs (map (lread_kv L) kvs) false (d1 ++ lread L v)) /\ ext L s L' s') W1 [] L1 (PAppendSub s1 v (join_prog kvs false))).
      { intros W1 L1 s1 d1 HW1 He1 Hh1. inversion Ha as [|y l Hy Hl]; subst. destruct (apart_ext _ _ _ _ _ Hy He1) as [[A1 A2] A3]. cbn [snd] in *.
        eapply good_append_sub; [exact Hh1 | exact A1|]. intros W2 L2 s2 HW2 Hh2 He2. rewrite A3 in Hh2.
        assert (He02 : ext L s L2 s2) by exact (ext_trans _ _ _ _ _ _ He1 He2).
        assert (Ha2 : Forall (apart L2 s2) kvs /\ map (lread_kv L2) kvs = map (lread_kv L2) kvs).
        { split; [|reflexivity]. eapply Forall_impl; [|exact Hl]. intros kv Hkv. apply (apart_ext _ _ _ _ _ Hkv He02). }
        assert (Hj : forall kvs' f2 d2, Forall (apart L s) kvs' -> join_kvs (map (lread_kv L2) kvs') f2 d2 = join_kvs (map (lread_kv L) kvs') f2 d2).
        { induction kvs' as [|[k' v'] kvs' IHk]; intros f2 d2 Hx; [reflexivity|]. inversion Hx as [|y l' Hy2 Hl2]; subst. cbn [map join_kvs lread_kv fst snd].
          destruct (apart_ext _ _ _ _ _ Hy2 He02) as [_ X]. cbn [snd] in X. unfold lread_kv at 1. rewrite X. apply IHk. exact Hl2. }
        eapply good_conseq; [apply (IH false W2 L2 s2 _ (kincl_trans _ _ _ HW1 HW2) (ext_trans _ _ _ _ _ _ He He02) Hh2 (proj1 Ha2))|].
        intros x W3 own3 L3 (-> & HW3 & s3 & -> & Hh3 & He3). split; [reflexivity|]. split; [exact HW3|]. exists s3. split; [reflexivity|]. rewrite Hj in Hh3 by exact Hl. split; [exact Hh3 | exact (ext_trans _ _ _ _ _ _ He02 He3)]. }
      destruct first; [apply Go; auto; apply ext_refl|]. eapply good_append; [exact Hh|]. intros W1 L1 s1 HW1 Hh1 He1. apply Go; auto. exact (kincl_trans _ _ _ HW HW1).
  Qed.

  Lemma sorted_good L0 s0 W0 eps es W L s d : Forall2 (edoes W0) eps es -> kincl W0 W -> ext L0 s0 L s -> holds L s d -> exec_sorted H es d <> OutOfFuel ->
    good H (rpost W0 L0 s0 (exec_sorted H es d)) W [] L (sorted_prog eps s).
  Proof.
    intros HF HW He Hh Hf. unfold sorted_prog, exec_sorted in *. apply good_get_buf. intros W1 L1 buf HW1 Hn1 Hs1 Hb1.
    assert (HW01 : kincl W0 W1) by exact (kincl_trans _ _ _ HW HW1).
    apply good_op; [exact I|]. intros W2 W3 own3 L3 x HW2 Ha.
    assert (Mel : exists y, x = AMelOpt y /\ (match y with Some l => l | None => [] end) = [] /\ W3 = W2 /\ own3 = [] /\ L3 = L1) by (inversion Ha; subst; eauto 6).
    destruct Mel as (y & -> & Hy & -> & -> & ->). cbn [to_mel_opt]. rewrite Hy. clear Ha Hy y. assert (HW02 : kincl W0 W2) by exact (kincl_trans _ _ _ HW01 HW2).
    assert (Hlen : s_len buf = 0%nat) by (apply Hb1).
    replace 0%nat with (s_len buf) at 1 by exact Hlen.
    assert (Fill : good H (fpost W0 L L1 buf (fill es [] [])) W2 [] L1 (fill_prog eps (s_len buf) buf [])).
    { apply fill_good; auto; [apply ext_refl | constructor | intros a Ha; eapply same_none; eauto | intros X; rewrite X in Hf; apply Hf; reflexivity]. }
    eapply good_bind; [exact Fill| |].
    - intros [[buf' mel] err] W3 own3 L3 (-> & HW3 & C).
      assert (Done : forall W4 L4 s4 b4 err4 bb, kincl W0 W4 -> holds L4 s4 b4 -> ext L s L4 s4 -> holds L4 buf' bb -> L (s_arr buf') = None -> s_arr buf' <> s_arr s4 ->
        good H (rpost W0 L0 s0 (Ret b4 err4)) W4 [] L4 (release_mel mel (PPutBuf buf' (PRet (s4, err4))))).
      { intros W4 L4 s4 b4 err4 bb HW4 Hh4 He4 Hbb Hnb Hne. unfold release_mel, PPutMel. apply good_op; [reflexivity|]. intros W5 W6 own6 L6 x HW5 Ha. astep_inv Ha.
        eapply good_put; [exact Hbb|]. intros W7 HW7. apply post_ret.
        - exact (kincl_trans _ _ _ HW4 (kincl_trans _ _ _ HW5 HW7)).
        - destruct Hh4 as (A & r & B). split; [exact A|]. exists r. rewrite ldel_other by congruence. exact B.
        - eapply ext_trans; [exact He|]. apply ext_del; assumption. }
      assert (Kp : forall s' : slice, ext L1 buf L3 s' -> same L L3 /\ L (s_arr s') = None).
      { intros s' (P & A & N). split.
        - intros a c Hc. destruct (P _ _ (Hs1 _ _ Hc)) as [P1 _]. apply P1. congruence.
        - destruct A as [->|A]; [exact Hn1 | eapply same_none; eauto]. }
      destruct (fill es [] []) as [kvs|e| |] eqn:Efill.
      + destruct C as (s' & mel' & bb & [= <- <- ->] & Hex & Hbb & Hsub & Hkvs). destruct (Kp _ Hex) as [Hsm Hnb].
        unfold PSort. apply good_op.
        { eapply Forall_impl; [|exact Hsub]. intros kv [(_ & c1 & X1 & _) (_ & c2 & X2 & _)]. unfold readable. split; congruence. }
        intros W4 W5 own5 L5 x HW4 Ha.
        assert (So : exists l', x = AMel l' /\ Permutation mel l' /\ map (lread_kv L3) l' = h_sort H (map (lread_kv L3) mel) /\ W5 = W4 /\ own5 = [] /\ L5 = L3) by (inversion Ha; subst; eauto 8).
        destruct So as (l' & -> & Hperm & Hsort & -> & -> & ->). cbn [to_mel]. clear Ha. rewrite Hkvs in Hsort.
        assert (Hap : Forall (apart L3 s) l').
        { eapply Permutation_Forall; [exact Hperm|]. eapply Forall_impl; [|exact Hsub]. intros kv [_ (X1 & c2 & X2 & _)]. split; [congruence|]. intros X. rewrite X in X1. destruct Hh as (_ & r & Hr). congruence. }
        assert (Hh3 : holds L3 s d) by (eapply holds_same; eauto).
        eapply good_bind; [apply (join_good L3 s W0 l' true W4 L3 s d (kincl_trans _ _ _ HW3 HW4) (ext_refl _ _) Hh3 Hap)| |].
        * intros s5 W5 own5 L5 (-> & HW5 & s5' & [= <-] & Hh5 & He5). rewrite Hsort in Hh5.
          assert (HbL5 : L5 (s_arr buf') = L3 (s_arr buf')).
          { destruct Hbb as (_ & r & Hr). destruct He5 as (P & _ & _). destruct (P _ _ Hr) as [P1 _]. rewrite Hr. apply P1. intros X. rewrite X in Hnb. destruct Hh as (_ & r2 & Hr2). congruence. }
          apply (Done W5 L5 s5 _ None bb); auto.
          -- eapply same_ext; [exact Hsm | exact He5].
          -- destruct Hbb as (A & r & Hr). split; [exact A|]. exists r. congruence.
          -- destruct He5 as (_ & [A|A] & _).
             ++ intros X. rewrite A in X. rewrite X in Hnb. destruct Hh as (_ & r2 & Hr2). congruence.
             ++ intros X. destruct Hbb as (_ & r & Hr). rewrite X in Hr. congruence.
        * intros W5 own5 L5 (_ & _ & s5' & X & _). discriminate.
      + destruct C as (s' & mel' & bb & [= <- <- ->] & Hex & Hbb). destruct (Kp _ Hex) as [Hsm Hnb].
        apply (Done W3 L3 s d (Some e) bb); auto.
        * eapply holds_same; eauto.
        * split; [apply pres_same; exact Hsm | auto].
        * intros X. rewrite X in Hnb. destruct Hh as (_ & r2 & Hr2). congruence.
      + destruct C as [X _]. discriminate.
      + destruct C.
    - intros W3 own3 L3 (-> & HW3 & C). destruct (fill es [] []) as [kvs|e| |] eqn:Efill.
      + destruct C as (s' & mel' & bb & X & _). discriminate.
      + destruct C as (s' & mel' & bb & X & _). discriminate.
      + destruct C as [_ C]. split; [reflexivity|]. split; [exact HW3|]. split; [reflexivity|]. eapply ext_pres; [exact He|]. apply pres_same. intros a c Hc. destruct (C _ _ (Hs1 _ _ Hc)) as [P1 _]. apply P1. congruence.
      + destruct C.
  Qed.

  Lemma entries_good L0 s0 W0 eps es W L s d : Forall2 (edoes W0) eps es -> kincl W0 W -> ext L0 s0 L s -> holds L s d ->
    (if has (o_flags o) unsortedMap then exec_unsorted es true d else exec_sorted H es d) <> OutOfFuel ->
    good H (rpost W0 L0 s0 (if has (o_flags o) unsortedMap then exec_unsorted es true d else exec_sorted H es d)) W [] L (entries_prog o eps s).
  Proof. intros HF HW He Hh Hf. unfold entries_prog. destruct (has (o_flags o) unsortedMap); [apply unsorted_good; auto | apply sorted_good; auto]. Qed.

  (** ** sync.Map *)
  Lemma sync_key_does f W k : (forall W t w, tok t -> does W (any_prog H o m t w) (any_of f t w)) -> (forall t w, k = Some (t, w) -> tok t) ->
    does W (sync_key_prog H o m k) (sync_key H o m (any_of f) k).
  Proof.
    intros HA Tk W1 L s d HW Hh Hf. unfold sync_key_prog, sync_key in *. destruct k as [[kt w]|]; [|apply post_ret; auto; apply ext_refl].
    specialize (Tk kt w eq_refl).
    destruct (negb (isString E kt) && negb (isInteger E kt) && negb (h_impl H kt MText)); [apply post_ret; auto; apply ext_refl|].
    destruct (isString E kt) eqn:Es; cbn [negb andb] in *.
    - destruct (rd_string m (LMem w)) as [b|] eqn:Eb; cbn [onSome bind] in *; [|apply post_crash; [apply kincl_refl | apply pres_refl]].
      unfold encode_string in *. 
      assert (Eq : forall d, encode_string d b o = d ++ encode_string [] b o).
      { intros d'. unfold encode_string. rewrite (escaped_app (d' ++ [34])), (escaped_app ([] ++ [34])) by (eapply rd_string_ok; eauto). rewrite <- !app_assoc. reflexivity. }
      change (appendEscapedBytes ([] ++ [34]) b o ++ [34]) with (encode_string [] b o). change (appendEscapedBytes (d ++ [34]) b o ++ [34]) with (encode_string d b o).
      rewrite Eq. eapply good_writes; [exact Hh|]. intros W2 L2 s2 HW2 Hh2 He2. apply post_ret; auto.
    - destruct (negb (h_impl H kt MText)).
      + eapply good_append; [exact Hh|]. intros W2 L2 s2 HW2 Hh2 He2. eapply thens_good; [exact HW2 | exact He2 | exact Hf | |].
        * apply (HA W2 kt w Tk W2 L2 s2); [apply kincl_refl | exact Hh2|]. intros X. rewrite X in Hf. apply Hf. reflexivity.
        * intros b W3 L3 s3 Er Hf3 HW23 HW3 Hh3 He3. apply emit_good; auto.
      + assert (Eq : bind (any_of f kt w d) (fun d => Ret d None) = any_of f kt w d) by (destruct (any_of f kt w d) as [b [e|]| |]; reflexivity).
        rewrite Eq in *. apply (HA W1 kt w Tk W1 L s d); auto.
  Qed.
  Lemma sync_val_does f W v : (forall W t w, tok t -> does W (any_prog H o m t w) (any_of f t w)) -> (forall t w, v = Some (t, w) -> tok t) ->
    does W (sync_val_prog H o m v) (sync_val (any_of f) v).
  Proof.
    intros HA Tv W1 L s d HW Hh Hf. unfold sync_val_prog, sync_val in *. destruct v as [[vt w]|]; [|apply post_crash; [apply kincl_refl | apply pres_refl]].
    apply (HA W1 vt w (Tv vt w eq_refl) W1 L s d); auto.
  Qed.

  (** ** All instructions *)
  Theorem run_ok f : forall c i p s d W L, den H W c i -> holds L s d -> exec H o m f i p d <> OutOfFuel ->
    good H (rpost W L s (exec H o m f i p d)) W [] L (run_body H o m c p s).
  Proof.
    induction f as [|f IH]; intros c i p s d W L Hd Hh Hf; [cbn in Hf; congruence|].
    assert (Cr : good H (rpost W L s Crash) W [] L PPanic) by (apply post_crash; [apply kincl_refl | apply pres_refl]).
    assert (Em : forall b, good H (rpost W L s (Ret (d ++ b) None)) W [] L (emit s b)) by (intros b; apply emit_good; [apply kincl_refl | exact Hh | apply ext_refl]).
    assert (Sub : forall c i p, den H W c i -> exec H o m f i p d <> OutOfFuel -> good H (rpost W L s (exec H o m f i p d)) W [] L (PRun o m c p s PRet)).
    { intros c' i' p' Hd' Hf'. apply (sub_does f IH W c' i' p' Hd' W L s d (kincl_refl _) Hh Hf'). }
    destruct c as [j|c|c es n ba|c es|kc vc|c|c|c|fs|t ca].
    - destruct Hd as [-> Hleaf].
      assert (Lf : exec H o m 1 j p d = exec H o m (S f) j p d -> good H (rpost W L s (exec H o m (S f) j p d)) W [] L (leaf_res (exec H o m 1 j p []) s)).
      { intros Eq. rewrite <- Eq in *. rewrite (appends_nil (exec H o m 1 j p) d (exec_appends H o m MB MA 1 j p)) in *. apply leaf_res_good; assumption. }
      destruct j; try (destruct Hleaf; fail); cbn [run_body]; try (apply Lf; reflexivity).
      + (* interface *) cbn [exec] in *. destruct (rd_eface m p) as [[[t w]|]|] eqn:Er; cbn [onSome] in *; [|apply Em | exact Cr].
        apply (any_does f IH W t w (proj1 MT _ _ _ Er) W L s d (kincl_refl _) Hh Hf).
      + (* sync.Map *) cbn [exec] in *. destruct (rd m p) as [cl|] eqn:Er; [|exact Cr]. destruct cl as [| | | | | | | |es]; try exact Cr.
        eapply good_append; [exact Hh|]. intros W1 L1 s1 HW1 Hh1 He1. eapply thens_good; [exact HW1 | exact He1 | exact Hf | |].
        * apply entries_good; auto; [|apply ext_refl | intros X; unfold exec_entries in Hf; rewrite X in Hf; apply Hf; reflexivity].
          assert (HA : forall W t w, tok t -> does W (any_prog H o m t w) (any_of f t w)) by (intros; apply any_does; auto).
          assert (Hin : forall kv, In kv es -> In kv es) by auto. revert Hin. generalize es at 1 3 4. intros l. induction l as [|[k v] l IHl]; intros Hin; [constructor|]. cbn [map]. constructor; [|apply IHl; intros kv Hkv; apply Hin; right; exact Hkv].
          assert (Hkv : In (k, v) es) by (apply Hin; left; reflexivity). split; cbn [fst snd].
          -- apply sync_key_does; [exact HA|]. intros t w ->. eapply (proj2 MT); eauto.
          -- apply sync_val_does; [exact HA|]. intros t w ->. eapply (proj2 MT); eauto.
        * intros b W2 L2 s2 Er2 Hf2 HW12 HW2 Hh2 He2. apply emit_good; auto.
      + (* marshaler *) cbn [exec] in *. apply marshaler_good; assumption.
      + (* bytes *) cbn [exec] in *. destruct (rd_byte_slice m p) as [v|] eqn:Er; cbn [onSome] in *; [|exact Cr]. apply byte_slice_good; [exact Hh|]. eapply rd_slice_ok; eauto.
    - (* pointer *) destruct i; try (destruct Hd; fail). cbn [den run_body exec] in *. destruct (rd_word m p) as [[|a|]|]; try exact Cr; [apply Em | apply Sub; assumption].
    - (* array *) destruct i; try (destruct Hd; fail). cbn [den run_body exec] in *. destruct Hd as (-> & -> & -> & Hd). apply array_good; assumption.
    - (* slice *) destruct i; try (destruct Hd; fail). cbn [den run_body exec] in *. destruct Hd as (-> & Hd). destruct (rd_header m p) as [[a n]|]; cbn [onSome] in *; [|exact Cr].
      destruct (a =? 0); [apply Em|]. destruct (n =? 0); [apply Em|]. apply array_good; assumption.
    - (* map *) destruct i; try (destruct Hd; fail). cbn [den run_body exec] in *. destruct Hd as [Hdk Hdv]. destruct (rd_word m p) as [[|a|]|]; try exact Cr; [apply Em|].
      destruct (m a) as [cl|]; [|exact Cr]. destruct cl as [| | | | | | |es|]; try exact Cr. destruct (length es =? 0)%nat; [apply Em|].
      eapply good_append; [exact Hh|]. intros W1 L1 s1 HW1 Hh1 He1. unfold new_hiter, PGetIter. apply good_op; [exact I|]. intros W2 W3 own3 L3 x HW2 Ha.
      assert (It : exists y, x = AIterOpt y /\ W3 = W2 /\ own3 = [] /\ L3 = L1) by (inversion Ha; subst; eauto 6). destruct It as (y & -> & -> & -> & ->). clear Ha. cbn [to_iter_opt].
      assert (HW02 : kincl W W2) by exact (kincl_trans _ _ _ HW1 HW2).
      assert (Go : good H (rpost W L s (exec_entries H o (kvlocs (exec H o m f) i1 i2 es) (d ++ [123]))) W2 [] L1
        (pbind (entries_prog o (map (fun kv => ((fun s => PRun o m kc (LMem (fst kv)) s PRet), (fun s => PRun o m vc (LMem (snd kv)) s PRet))) es) s1) (fun r =>
              PPutIter es (match r with (s, None) => emit s [125] | (s, Some e) => PRet (s, Some e) end)))).
      { unfold exec_entries in *. set (r := if has (o_flags o) unsortedMap then exec_unsorted (kvlocs (exec H o m f) i1 i2 es) true (d ++ [123]) else exec_sorted H (kvlocs (exec H o m f) i1 i2 es) (d ++ [123])) in *.
        eapply (run_then _ W W2 L s L1 s1 _ r); [exact HW02 | exact He1 | | |].
        - apply entries_good; auto; [|apply ext_refl | intros X; unfold r in Hf; rewrite X in Hf; apply Hf; reflexivity].
          unfold kvlocs. generalize es. induction es0 as [|kv l IHl]; [constructor|]. cbn [map]. constructor; [|exact IHl]. split; cbn [fst snd]; apply sub_does; auto; eapply den_mono; eauto.
        - intros b err W4 L4 s4 Er HW4 Hh4 He4. rewrite Er in *. unfold PPutIter. apply good_op; [exact I|]. intros W5 W6 own6 L6 x HW5 Ha. astep_inv Ha.
          assert (HW06 : kincl W W6) by exact (kincl_trans _ _ _ HW02 (kincl_trans _ _ _ HW4 HW5)). assert (He04 : ext L s L6 s4) by exact (ext_trans _ _ _ _ _ _ He1 He4).
          destruct err as [er|]; cbn [bind]; [apply post_ret; auto | apply emit_good; auto].
        - intros Er W4 L4 HW4 Hp4. rewrite Er. cbn [bind]. split; [reflexivity|]. split; [exact (kincl_trans _ _ _ HW02 HW4)|]. split; [reflexivity | eapply ext_pres; eauto]. }
      destruct y as [it|]; exact Go.
    - (* inlined *) destruct i; try (destruct Hd; fail). cbn [den run_body exec] in *. destruct p as [w|w off]; [|exact Cr]. apply Sub; assumption.
    - (* quoted *) destruct i; try (destruct Hd; fail). cbn [den run_body exec] in *. eapply good_append; [exact Hh|]. intros W1 L1 s1 HW1 Hh1 He1.
      eapply thens_good; [exact HW1 | exact He1 | exact Hf | |].
      + apply (sub_does f IH W1 c i p (den_mono H _ _ HW1 _ _ Hd) W1 L1 s1 _ (kincl_refl _) Hh1). intros X. rewrite X in Hf. apply Hf. reflexivity.
      + intros b W2 L2 s2 Er Hf2 HW12 HW2 Hh2 He2. apply emit_good; auto.
    - (* nil text *) destruct i; try (destruct Hd; fail). cbn [den run_body exec] in *. destruct (is_nil m p) as [[|]|]; cbn [onSome] in *; [apply Em | apply Sub; assumption | exact Cr].
    - (* struct *) destruct i as [ | | | | | | | | | | | | | |t ca| | | | | | | ]; try (destruct Hd; fail). apply den_struct in Hd. destruct Hd as (n & sfs & Hb & Hds). cbn [run_body exec] in *.
      destruct (struct_body H f t ca) as [sfs'|] eqn:Eb; [|congruence].
      assert (sfs' = sfs). { apply (struct_body_mono H _ (Nat.max n f)) in Hb; [|lia]. apply (struct_body_mono H _ (Nat.max n f)) in Eb; [|lia]. congruence. } subst sfs'.
      apply fields_good; auto. apply ext_refl.
    - (* placeholder *) destruct Hd as [-> HWt]. cbn [run_body exec] in *. unfold PWait. apply good_op; [split; [exact HWt | reflexivity]|]. intros W1 W2 own2 L2 x HW1 Ha.
      assert (Wt : exists fs, x = AIns fs /\ W2 = W1 /\ own2 = [] /\ L2 = L /\ den H W1 (KStruct fs) (IStruct t ca)) by (inversion Ha; subst; eauto 8).
      destruct Wt as (fs & -> & -> & -> & -> & Hd). cbn [to_ins]. apply den_struct in Hd. destruct Hd as (n & sfs & Hb & Hds).
      destruct (struct_body H f t ca) as [sfs'|] eqn:Eb; [|congruence].
      assert (sfs' = sfs). { apply (struct_body_mono H _ (Nat.max n f)) in Hb; [|lia]. apply (struct_body_mono H _ (Nat.max n f)) in Eb; [|lia]. congruence. } subst sfs'.
      apply fields_good; auto. apply ext_refl.
  Qed.
End Run.
