(** Building instructions with the caches, whatever other goroutines do: the
    closures stand for the instructions that [compile] gives, and building ends. *)
From Verif Require Import Base IntModel JsonSpec OptionsModel EscapeModel TypesModel TypesFacts TagsModel TimeModel FloatModel LeafModel Base64Model MemModel FieldsModel InstrModel ExecModel ValueModel ExecMono ExecProof HostFacts ConcModel ConcLogic FieldsProof FieldsThm.

Section Closed.
  Variable H : host.
  Notation E := (h_env H).

  (** A set of types that has all the types its members are made of. *)
  Definition closed (U : list typ) : Prop := forall u v, In u U -> In v (subterms (under E u)) -> In v U.

  Definition builtins : list typ := [under E TTime; under E TSyncMap; under E TRawMessage; under E TNumber; under E TDuration; TTime].
  Definition all_types (N : nat) (t : typ) : list typ := flat_map subterms (t :: builtins) ++ flat_map (fun n => subterms (E n)) (names t ++ seq 0 N).

  Lemma all_types_self N t : In t (all_types N t).
  Proof. unfold all_types. apply in_app_iff. left. apply in_flat_map. exists t. split; [left; reflexivity | apply subterms_self]. Qed.
  Lemma all_types_closed N t : (forall n a, In a (names (E n)) -> (a < N)%nat) -> closed (all_types N t).
  Proof.
    intros HN u v Hu Hv.
    assert (Sub : forall a b, In a (all_types N t) -> In b (subterms a) -> In b (all_types N t)).
    { intros a b Ha Hb. unfold all_types in *. apply in_app_iff in Ha. apply in_app_iff. destruct Ha as [Ha|Ha]; apply in_flat_map in Ha; destruct Ha as (w & A & B); [left | right]; apply in_flat_map; exists w; (split; [exact A|]); eapply subterms_trans; eauto. }
    assert (Bi : forall b, In b builtins -> In b (all_types N t)).
    { intros b Hb. unfold all_types. apply in_app_iff. left. apply in_flat_map. exists b. split; [right; exact Hb | apply subterms_self]. }
    assert (Nm : forall a n, In a (all_types N t) -> In n (names a) -> In n (names t ++ seq 0 N)).
    { intros a n Ha Hn. unfold all_types in Ha. apply in_app_iff in Ha. apply in_app_iff. destruct Ha as [Ha|Ha]; apply in_flat_map in Ha; destruct Ha as (w & A & B).
      - assert (X := subterms_names _ _ _ B Hn). destruct A as [<-|A]; [left; exact X|]. unfold builtins in A. cbn [In] in A. repeat (destruct A as [<-|A]; [destruct X|]). destruct A.
      - right. apply in_seq. assert (X := HN w n (subterms_names _ _ _ B Hn)). lia. }
    eapply Sub; [|exact Hv]. destruct u; try exact Hu.
    - cbn [under]. unfold all_types. apply in_app_iff. right. apply in_flat_map. exists n. split; [eapply Nm; [exact Hu | left; reflexivity] | apply subterms_self].
    - apply Bi. left. reflexivity.
    - apply Bi. do 4 right. left. reflexivity.
    - apply Bi. do 3 right. left. reflexivity.
    - apply Bi. do 2 right. left. reflexivity.
    - apply Bi. right. left. reflexivity.
  Qed.

  Lemma closed_index U : closed U -> forall p t u, In t U -> type_by_index H t p = Some u -> In u U.
  Proof.
    intros CU. induction p as [|i p IH]; intros t u Ht; cbn [type_by_index]; [intros [= <-]; exact Ht|].
    assert (Ht' : In match under E t with TPtr e => e | _ => t end U).
    { destruct (under E t) eqn:Eu; try exact Ht. apply (CU t); [exact Ht|]. rewrite Eu. cbn [subterms]. right. apply subterms_self. }
    destruct (nth_error (fields_of H _) i) as [[d u']|] eqn:En; [|discriminate]. apply IH. apply nth_error_In in En. unfold fields_of in En.
    eapply CU; [exact Ht'|]. destruct (under E (match under E t with TPtr e => e | _ => t end)); try (destruct En; fail). eapply subterms_field; [exact En | apply subterms_self].
  Qed.
End Closed.

Ltac astep_inv Ha := inversion Ha; subst; clear Ha; cbn [to_unit to_slice to_slice_opt to_nat to_bytes to_bool to_mel to_mel_opt to_iter_opt to_cache to_clos_opt to_ins to_fields to_fields_opt to_typ to_typ_opt].

(** What the theorems on executions need of a program: its instructions can be
    built.  Nothing is assumed of the methods of the user (compare [host_ok]),
    which may panic. *)
Record host_builds (H : host) : Prop := {
  hb_wf : wf_host H;
  hb_compile : forall t ca q, typ_ok (h_letter H) (h_udigit H) t -> exists k i, compile H k t ca q = Some i;
  hb_inlined : forall t, typ_ok (h_letter H) (h_udigit H) t -> exists k b, isInlined H k t = Some b;
  hb_fields : forall t, typ_ok (h_letter H) (h_udigit H) t -> exists k fs, structFields H k t = Some fs
}.
Lemma host_ok_builds H vcall : host_ok H vcall -> host_builds H.
Proof. intros OK. constructor; [exact (ok_wf _ _ OK) | exact (ok_compile _ _ OK) | exact (ok_inlined _ _ OK) | exact (ok_fields _ _ OK)]. Qed.

Section Build.
  Variable H : host.
  Hypothesis OK : host_builds H.
  Notation E := (h_env H).
  Notation tok := (typ_ok (h_letter H) (h_udigit H)).
  Lemma index_ok p : forall t u, tok t -> type_by_index H t p = Some u -> tok u.
  Proof.
    induction p as [|i p IH]; intros t u Ht; cbn [type_by_index]; [intros [= <-]; exact Ht|].
    assert (Ht' : tok match under E t with TPtr e => e | _ => t end).
    { assert (G := under_ok H (hb_wf _ OK) t Ht). destruct (under E t); auto. }
    destruct (nth_error (fields_of H _) i) as [[d u']|] eqn:En; [|discriminate]. apply IH.
    assert (F := fields_of_ok H (hb_wf _ OK) _ Ht'). rewrite Forall_forall in F. apply nth_error_In in En. apply (F _ En).
  Qed.
  Lemma field_type k t fs f : tok t -> structFields H k t = Some fs -> In f fs -> exists u, type_by_index H t (f_index f) = Some u /\ tok u.
  Proof.
    intros Tt Hs Hf. destruct (structFields_data H (hb_wf _ OK) t Tt k fs f Hs Hf) as (p & sq & w & i & u & opts & A1 & A2 & A3 & _).
    destruct A3 as (fs' & d & n & B1 & B2 & _). unfold FieldsSpec.struct_of in B1.
    assert (Ef : fields_of H w = fs') by (unfold fields_of; rewrite B1; reflexivity). subst fs'.
    assert (Hu := promoted_type H _ _ _ _ _ _ _ A2 B2 (ex_intro _ _ B1)). rewrite <- A1 in Hu. exists u. split; [exact Hu|]. exact (index_ok _ t u Tt Hu).
  Qed.
  Lemma fields_built t ca fs : (forall f, In f fs -> exists u, type_by_index H t (f_index f) = Some u /\ tok u) ->
    exists k ss, build_fields H k t ca fs = Some ss.
  Proof.
    induction fs as [|f fs IH]; intros Hf; [exists 0%nat, []; reflexivity|].
    destruct (IH (fun x Hx => Hf x (or_intror Hx))) as (k1 & ss & H1). destruct (Hf f (or_introl eq_refl)) as (u & Hu & Tu).
    destruct (hb_compile _ OK u ca (f_quoted f && isBasicType E match under E u with TPtr e => e | _ => u end) Tu) as (k2 & i & H2).
    exists (Nat.max k1 k2). cbn [build_fields]. unfold build_field. rewrite Hu. rewrite (compile_mono H k2 _ _ _ _ _ H2) by lia.
    rewrite (build_fields_mono H k1 _ _ _ _ _ H1) by lia. eauto.
  Qed.
  Variable U : list typ.
  Hypothesis CU : closed H U.

  (** The keys of [U] that are not in the cache are in [K]. *)
  Definition covers (K : list key) (W : keys) : Prop := forall t ca, In t U -> W (t, ca) \/ In (t, ca) K.
  Lemma covers_mono K W W' : kincl W W' -> covers K W -> covers K W'.
  Proof. intros HW Hc t ca Ht. destruct (Hc t ca Ht); auto. Qed.
  Lemma covers_all W : covers (list_prod U [true; false]) W.
  Proof. intros t ca Ht. right. apply in_prod; [exact Ht | destruct ca; cbn; auto]. Qed.
  Definition kdel (k : key) (K : list key) : list key := filter (fun k' => negb (key_eqb k k')) K.
  Lemma kdel_length k K : In k K -> (length (kdel k K) < length K)%nat.
  Proof.
    induction K as [|a K IH]; intros Hi; [destruct Hi|]. unfold kdel in *. cbn [filter length]. destruct (key_eqb k a) eqn:Ek; cbn [negb].
    - assert (X : (length (filter (fun k' => negb (key_eqb k k')) K) <= length K)%nat). { clear. induction K as [|y l I2]; cbn [filter length]; [lia|]. destruct (negb (key_eqb k y)); cbn [length]; lia. } apply Nat.lt_succ_r. exact X.
    - destruct Hi as [->|Hi]; [rewrite (proj2 (key_eqb_eq k k) eq_refl) in Ek; discriminate|]. cbn [length]. apply (proj1 (Nat.succ_lt_mono _ _)). exact (IH Hi).
  Qed.
  Lemma covers_del K W k : covers K W -> covers (kdel k K) (kadd W k).
  Proof.
    intros Hc t ca Ht. destruct (key_eqb k (t, ca)) eqn:Ek; [apply key_eqb_eq in Ek; left; right; congruence|].
    destruct (Hc t ca Ht) as [X|X]; [left; left; exact X | right]. apply filter_In. split; [exact X | rewrite Ek; reflexivity].
  Qed.

  Definition bpost (W0 : keys) (own : list hold) (L : lheap) (P : clos -> keys -> Prop) : post clos :=
    fun r W' own' L' => own' = own /\ L' = L /\ kincl W0 W' /\ exists c, r = Some c /\ P c W'.
  Notation stands i := (fun c W' => den H W' c i).

  Definition builds_in (K : list key) : Prop := forall f t ca q i W0 W own L, compile H f t ca q = Some i -> tok t -> In t U -> covers K W -> kincl W0 W ->
    good H (bpost W0 own L (stands i)) W own L (build_body H t ca q).

  Lemma leaf_clos_den W t q i : basic_instr H t q = Some i -> den H W (leaf_clos i) i.
  Proof. unfold basic_instr. destruct (under E t); try discriminate; destruct q; intros [= <-]; cbn; auto. Qed.
  Lemma go_leaf W t i : go_type_instr t = Some i -> den H W (KLeaf i) i.
  Proof. destruct t; try discriminate; intros [= <-]; cbn; auto. Qed.
  Lemma marsh_leaf W t ca i : marshaler_instr H t ca = Some i -> den H W (KLeaf i) i.
  Proof. unfold marshaler_instr. repeat match goal with |- context [if ?b then _ else _] => destruct b end; intros [= <-]; cbn; auto. Qed.
  Lemma key_den W kt kc ki : den H W kc ki -> den H W (ckey_wrap H kt kc) (key_wrap H kt ki).
  Proof. intros Hd. unfold ckey_wrap, key_wrap, quote_if. destruct (negb (isString E kt) && negb (h_impl H kt MText)), (h_impl H kt MText && is_ptr H kt); cbn [den]; exact Hd. Qed.

  (** A call to newInstruction in the middle of a program. *)
  Lemma good_pbuild {A} (Q : post A) K f t ca q i W own L (k : clos -> prog A) : builds_in K -> compile H f t ca q = Some i -> tok t -> In t U -> covers K W ->
    (forall c W', kincl W W' -> den H W' c i -> good H Q W' own L (k c)) -> good H Q W own L (PBuild t ca q k).
  Proof.
    intros HB Hc Tt Ht HK Hk. apply good_build. eapply good_bind; [apply (HB f t ca q i W W own L); auto| |].
    - intros x W' own' L' (-> & -> & HW & c & [= <-] & Hd). auto.
    - intros W' own' L' (_ & _ & _ & c & X & _). discriminate.
  Qed.

  (** instruction.go:297-321: the loop over the fields *)
  Lemma fields_build_good K N t ca : builds_in K -> tok t -> In t U -> forall fs sfs W0 W own L, build_fields H N t ca fs = Some sfs -> covers K W -> kincl W0 W ->
    good H (fun r W' own' L' => own' = own /\ L' = L /\ kincl W0 W' /\ exists cs, r = Some cs /\ den_fields H W' cs sfs) W own L (fields_build H t ca fs).
  Proof.
    intros HB Tt Ht. induction fs as [|f fs IH]; intros sfs W0 W own L Hb HK HW; cbn [build_fields fields_build] in *.
    - injection Hb as <-. apply good_ret. repeat split; auto. exists []. split; [reflexivity | exact I].
    - destruct (build_field H N t ca f) as [s|] eqn:Ef; [|discriminate]. destruct (build_fields H N t ca fs) as [ss|] eqn:Efs; [|discriminate]. injection Hb as <-.
      unfold build_field in Ef. destruct (type_by_index H t (f_index f)) as [ft|] eqn:Et; [|discriminate].
      destruct (compile H N ft ca _) as [i|] eqn:Ec; [|discriminate]. injection Ef as <-.
      eapply good_pbuild; eauto. { eapply index_ok; eauto. } { eapply closed_index; eauto. }
      intros c W1 HW1 Hd.
      apply (good_bind H (fun r W' own' L' => own' = own /\ L' = L /\ kincl W1 W' /\ r = Some (if f_omitEmpty f then Some ft else None))).
      + destruct (f_omitEmpty f); [|apply good_ret; auto]. cbn [pbind]. unfold cached_empty, PLoadEmpty. cbn [pbind]. apply good_op; [exact I|].
        intros W2 W3 own3 L3 x HW2 Ha. astep_inv Ha; cbn [pbind].
        * apply good_ret. auto.
        * unfold PLoadOrStoreEmpty. cbn [pbind]. apply good_op; [reflexivity|]. intros W4 W5 own5 L5 x HW4 Ha. astep_inv Ha; cbn [pbind]. apply good_ret. repeat split; auto. eapply kincl_trans; eauto.
      + intros e W2 own2 L2 (-> & -> & HW2 & [= ->]).
        eapply good_bind; [apply (IH ss W2 W2 own L eq_refl)| |].
        * eapply covers_mono; [|exact HK]. eapply kincl_trans; eauto.
        * apply kincl_refl.
        * intros cs W3 own3 L3 (-> & -> & HW3 & cs' & [= <-] & Hds). apply good_ret. split; [reflexivity|]. split; [reflexivity|]. split; [do 3 (eapply kincl_trans; eauto)|].
          eexists. split; [reflexivity|]. cbn [den_fields]. split; [reflexivity|]. split; [|exact Hds]. cbn [sf_instr]. eapply den_mono; [|exact Hd]. eapply kincl_trans; eauto.
        * intros W3 own3 L3 (_ & _ & _ & cs' & X & _). discriminate.
      + intros W2 own2 L2 (_ & _ & _ & X). discriminate.
  Qed.

  Lemma struct_fields_good K t ca W0 W own L : builds_in K -> tok t -> In t U -> covers K W -> kincl W0 W ->
    good H (fun r W' own' L' => own' = own /\ L' = L /\ kincl W0 W' /\ exists fs, r = Some fs /\ den H W' (KStruct fs) (IStruct t ca)) W own L (struct_fields_build H t ca).
  Proof.
    intros HB Tt Ht HK HW. unfold struct_fields_build. destruct (fields_of H t) as [|f0 fs0] eqn:Ef.
    - apply good_ret. repeat split; auto. exists []. split; [reflexivity|]. apply den_struct. exists 0%nat, []. unfold struct_body. rewrite Ef. split; [reflexivity | exact I].
    - apply (good_bind H (fun r W' own' L' => own' = own /\ L' = L /\ kincl W W' /\ exists fs, r = Some fs /\ fields_ok H t fs)).
      + destruct (hb_fields _ OK t Tt) as (k0 & fs & Hfs). unfold cached_fields, PLoadFields. apply good_op; [exact I|]. intros W1 W2 own2 L2 x HW1 Ha. astep_inv Ha.
        * apply good_ret. repeat split; auto. eauto.
        * unfold PStructFields. apply good_op; [exists fs, k0; exact Hfs|]. intros W3 W4 own4 L4 x HW3 Ha. astep_inv Ha.
          unfold PLoadOrStoreFields. apply good_op; [assumption|]. intros W5 W6 own6 L6 x HW5 Ha. astep_inv Ha.
          apply good_ret. split; [reflexivity|]. split; [reflexivity|]. split; [eapply kincl_trans; [eapply kincl_trans|]; eauto | eauto].
      + intros fs W1 own1 L1 (-> & -> & HW1 & fs' & [= <-] & k0 & Hfs).
        destruct (fields_built t ca fs (fun f Hf => field_type k0 t fs f Tt Hfs Hf)) as (kb & ss & Hb).
        eapply good_conseq; [eapply (fields_build_good K kb t ca HB Tt Ht fs ss W0 W1 own L Hb)|].
        * eapply covers_mono; eauto.
        * eapply kincl_trans; eauto.
        * intros x W2 own2 L2 (-> & -> & HW2 & cs & -> & Hd). repeat split; auto. exists cs. split; [reflexivity|]. apply den_struct. exists (Nat.max k0 kb), ss. split; [|exact Hd].
          unfold struct_body. rewrite Ef. rewrite (structFields_mono H k0 _ t fs Hfs) by lia. apply (build_fields_mono H kb); [exact Hb | lia].
      + intros W1 own1 L1 (_ & _ & _ & fs & X & _). discriminate.
  Qed.

  (** instruction.go:251-284 *)
  Lemma struct_good K t ca W0 W own L : (forall K', (length K' < length K)%nat -> builds_in K') -> tok t -> In t U -> covers K W -> kincl W0 W ->
    good H (bpost W0 own L (stands (IStruct t ca))) W own L (struct_build H t ca).
  Proof.
    intros HB Tt Ht HK HW. unfold struct_build, PLoadStruct. apply good_op; [exact I|]. intros W1 W2 own2 L2 x HW1 Ha. astep_inv Ha.
    { apply good_ret. split; [reflexivity|]. split; [reflexivity|]. split; [eapply kincl_trans; eauto | eauto]. }
    unfold PLoadOrStoreStruct. apply good_op; [exact I|]. intros W3 W4 own4 L4 x HW3 Ha. astep_inv Ha.
    { apply good_ret. split; [reflexivity|]. split; [reflexivity|]. split; [do 2 (eapply kincl_trans; eauto) | eauto]. }
    assert (HK3 : covers K W3) by (do 2 (eapply covers_mono; eauto)).
    assert (Hin : In (t, ca) K) by (destruct (HK3 t ca Ht); [contradiction | assumption]).
    assert (W0W3 : kincl W0 W3) by (do 2 (eapply kincl_trans; eauto)).
    eapply good_bind; [apply (struct_fields_good (kdel (t, ca) K) t ca (kadd W3 (t, ca)) (kadd W3 (t, ca)))|  |].
    - apply HB. apply kdel_length. exact Hin.
    - exact Tt.
    - exact Ht.
    - apply covers_del. exact HK3.
    - apply kincl_refl.
    - intros fs W4 ownx Lx (-> & -> & HW4 & fs' & [= <-] & Hd). unfold PSetIns. apply good_op; [split; [eauto | exact Hd]|].
      intros W5 W6 own6 L6 x HW5 Ha. astep_inv Ha. match goal with X : _ :: _ = _ :: _ |- _ => injection X as <- <- end.
      unfold PDone. apply good_op; [eexists; reflexivity|]. intros W7 W8 own8 L8 x HW7 Ha. astep_inv Ha. match goal with X : _ :: _ = _ :: _ |- _ => injection X as <- end.
      assert (HW47 : kincl W4 W8) by (eapply kincl_trans; eauto).
      unfold PStoreStruct. apply good_op; [split; [apply HW47, HW4; right; reflexivity | eapply den_mono; [exact HW47 | exact Hd]]|].
      intros W9 W10 own10 L10 x HW9 Ha. astep_inv Ha.
      apply good_ret. split; [reflexivity|]. split; [reflexivity|]. assert (HW49 : kincl W4 W10) by (eapply kincl_trans; eauto). split.
      + eapply kincl_trans; [exact W0W3|]. eapply kincl_trans; [|exact HW49]. eapply kincl_trans; [|exact HW4]. apply kincl_add.
      + eexists. split; [reflexivity|]. eapply den_mono; [exact HW49 | exact Hd].
    - intros Wx ownx Lx (_ & _ & _ & fs & X & _). discriminate.
  Qed.

  (** instruction.go:85-115 *)
  Lemma build_good n : forall K, (length K < n)%nat -> builds_in K.
  Proof.
    induction n as [|n IHn]; intros K HKn; [lia|]. intros f. induction f as [|f IHf]; intros t ca q i W0 W own L Hc Tt Ht HK HW; [discriminate|].
    assert (Ret : forall c j, Some j = Some i -> (forall W, den H W c j) -> good H (bpost W0 own L (stands i)) W own L (PRet c)).
    { intros c j [= ->] Hd. apply good_ret. repeat split; auto. eauto. }
    assert (Sub : forall e ca' q' j (k : clos -> prog clos), compile H f e ca' q' = Some j -> tok e -> In e U ->
      (forall c W', kincl W W' -> den H W' c j -> good H (bpost W0 own L (stands i)) W' own L (k c)) -> good H (bpost W0 own L (stands i)) W own L (PBuild e ca' q' k)).
    { intros e ca' q' j k Hj Te He Hk. apply good_build. eapply good_bind; [apply (IHf e ca' q' j W W own L); auto| |].
      - intros x W' own' L' (-> & -> & HW' & c & [= <-] & Hd). auto.
      - intros W' own' L' (_ & _ & _ & c & X & _). discriminate. }
    cbn [compile] in Hc. unfold build_body. destruct (go_type_instr t) as [gi|] eqn:Eg. { eapply Ret; [exact Hc|]. intros W'. eapply go_leaf; eauto. }
    destruct (marshaler_instr H t ca) as [mi|] eqn:Em. { eapply Ret; [exact Hc|]. intros W'. eapply marsh_leaf; eauto. }
    destruct (basic_instr H t q) as [bi|] eqn:Eb. { eapply Ret; [exact Hc|]. intros W'. eapply leaf_clos_den; eauto. }
    assert (Tu := under_ok H (hb_wf _ OK) t Tt). assert (Hsub := CU t).
    destruct (under E t) as [ |ik|fb| | | | | |ms|e|e|an e|kt et|fs|nn| | | | | ] eqn:Eu; try (eapply Ret; [exact Hc | intros W'; cbn; auto]; fail).
    - (* ptr *) destruct (compile H f e true q) as [j|] eqn:Ej; [|discriminate]. injection Hc as <-. eapply Sub; eauto.
      { apply (Hsub e Ht). right. apply subterms_self. }
      intros c W' HW' Hd. apply good_ret. split; [reflexivity|]. split; [reflexivity|]. split; [eapply kincl_trans; eauto | eauto].
    - (* slice *) destruct (byte_elem H e) eqn:Ebe. { eapply Ret; [exact Hc | intros W'; cbn; auto]. }
      destruct (compile H f e true false) as [j|] eqn:Ej; [|discriminate]. injection Hc as <-. eapply Sub; eauto.
      { apply (Hsub e Ht). right. apply subterms_self. }
      intros c W' HW' Hd. apply good_ret. split; [reflexivity|]. split; [reflexivity|]. split; [eapply kincl_trans; eauto|]. eexists. split; [reflexivity|]. cbn [den]. auto.
    - (* array *) destruct (compile H f e ca false) as [j|] eqn:Ej; [|discriminate]. injection Hc as <-. eapply Sub; eauto.
      { apply (Hsub e Ht). right. apply subterms_self. }
      intros c W' HW' Hd. apply good_ret. split; [reflexivity|]. split; [reflexivity|]. split; [eapply kincl_trans; eauto|]. eexists. split; [reflexivity|]. cbn [den]. auto.
    - (* map *) destruct (negb (key_ok H kt)). { eapply Ret; [exact Hc | intros W'; cbn; auto]. }
      assert (Kin : In kt U) by (apply (Hsub kt Ht); right; apply in_app_iff; left; apply subterms_self).
      assert (Ein : In et U) by (apply (Hsub et Ht); right; apply in_app_iff; right; apply subterms_self).
      destruct Tu as [Tk Te].
      assert (Val : forall kc ki W1, kincl W W1 -> den H W1 kc ki -> match compile H f et false false with None => None | Some vi => Some (IMap (key_wrap H kt ki) vi) end = Some i ->
        good H (bpost W0 own L (stands i)) W1 own L (PBuild et false false (fun vi => PRet (KMap (ckey_wrap H kt kc) vi)))).
      { intros kc ki W1 HW1 Hdk Hv. destruct (compile H f et false false) as [vi|] eqn:Ev; [|discriminate]. injection Hv as <-.
        apply good_build. eapply good_bind; [apply (IHf et false false vi W1 W1 own L); auto; eapply covers_mono; eauto| |].
        - intros x W' own' L' (-> & -> & HW' & c & [= <-] & Hd). apply good_ret. split; [reflexivity|]. split; [reflexivity|]. split; [do 2 (eapply kincl_trans; eauto)|].
          eexists. split; [reflexivity|]. cbn [den]. split; [apply key_den; eapply den_mono; eauto | exact Hd].
        - intros W' own' L' (_ & _ & _ & c & X & _). discriminate. }
      destruct (isString E kt).
      + cbn [pbind]. apply (Val _ IString W (kincl_refl _)); [cbn; auto | exact Hc].
      + destruct (compile H f kt false false) as [ki|] eqn:Ek; [|discriminate]. cbn [pbind]. eapply Sub; eauto.
    - (* struct *) injection Hc as <-. apply (struct_good K); auto. intros K' HK'. apply IHn. lia.
  Qed.

  Theorem build_ok t ca q i f W own L : compile H f t ca q = Some i -> tok t -> In t U ->
    good H (bpost W own L (stands i)) W own L (build_body H t ca q).
  Proof. intros Hc Tt Ht. eapply (build_good (S (length (list_prod U [true; false])))); eauto. apply covers_all. Qed.
End Build.

(** instruction.go:33-52: cachedInstr *)
Theorem cached_ok H (OK : host_builds H) : finite_refs (h_env H) -> forall t W own L, typ_ok (h_letter H) (h_udigit H) t ->
  good H (bpost W own L (fun c W' => exists n i, cached_instr H n t = Some i /\ den H W' c i)) W own L (cached_prog H t).
Proof.
  intros [N HN] t W own L Tt. unfold cached_prog, PLoadCache. apply good_op; [exact I|]. intros W1 W2 own2 L2 x HW1 Ha. astep_inv Ha.
  destruct (lookup_typ c t) as [i|] eqn:El.
  { apply good_ret. repeat split; auto. eauto. }
  destruct (hb_compile _ OK t (is_ptr H t) false Tt) as (k1 & j & Hj). destruct (hb_inlined _ OK t Tt) as (k2 & b & Hb).
  assert (CU := all_types_closed H N t HN).
  eapply (good_pbuild H (all_types H N t)); [eapply (build_good H OK _ CU (S (length (list_prod (all_types H N t) [true; false])))); apply Nat.lt_succ_diag_r | exact Hj | exact Tt | apply all_types_self | apply covers_all|].
  intros c' W3 HW3 Hd. unfold PInlined. apply good_op; [exists k2, b; exact Hb|]. intros W4 W5 own5 L5 x HW4 Ha. astep_inv Ha.
  match goal with X : isInlined H ?n t = Some ?b0 |- context [if ?b0 then _ else _] => assert (Eb : b0 = b); [clear - X Hb; apply (isInlined_mono H n (Nat.max n k2)) in X; [|lia]; apply (isInlined_mono H k2 (Nat.max n k2)) in Hb; [|lia]; congruence | subst b0] end.
  assert (Hc : cached_instr H (Nat.max k1 k2) t = Some (if b then IInline j else j)).
  { unfold cached_instr. rewrite (compile_mono H k1 _ _ _ _ _ Hj) by lia. rewrite (isInlined_mono H k2 _ _ _ Hb) by lia. reflexivity. }
  assert (Hd2 : forall W', kincl W3 W' -> den H W' (if b then KInline c' else c') (if b then IInline j else j)).
  { intros W' HW'. destruct b; cbn [den]; eapply den_mono; eauto. }
  apply good_op; [exact I|]. intros W6 W7 own7 L7 x HW6 Ha. astep_inv Ha.
  assert (HW37 : kincl W3 W7) by (eapply kincl_trans; eauto).
  unfold PStoreCache. apply good_op.
  { intros t' i' Hl. rewrite lookup_typ_cons in Hl. destruct (typ_eqb t' t) eqn:Et; [|eauto]. apply typ_eqb_eq in Et. subst t'. injection Hl as <-. exists (Nat.max k1 k2). eexists. split; [exact Hc | apply Hd2; exact HW37]. }
  intros W8 W9 own9 L9 x HW8 Ha. astep_inv Ha. apply good_ret. split; [reflexivity|]. split; [reflexivity|].
  assert (HW39 : kincl W3 W9) by (eapply kincl_trans; eauto). split.
  - eapply kincl_trans; [exact HW1|]. eapply kincl_trans; [exact HW3 | exact HW39].
  - eexists. split; [reflexivity|]. exists (Nat.max k1 k2). eexists. split; [exact Hc | apply Hd2; exact HW39].
Qed.
