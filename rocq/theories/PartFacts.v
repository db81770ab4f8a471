(** Parts of a value: they are held by the same memory, and smaller. *)
From Verif Require Import Base IntModel JsonSpec OptionsModel TypesModel TypesFacts TagsModel TagsProof TimeModel FloatModel LeafModel MemModel
  FieldsSpec FieldsModel FieldsProof FieldsThm InstrModel ExecModel ValueModel ExecMono ExecProof VencFacts DocSpec.

Lemma isDeniedField_spec o n : isDeniedField o n = true <-> denied o n.
Proof.
  unfold isDeniedField, denied. destruct (o_deny o) as [d|].
  - destruct (mem_bytes n d) eqn:Em.
    + split; [|reflexivity]. intros _. left. exists d. split; [reflexivity | apply mem_bytes_In; exact Em].
    + assert (Nd : ~ In n d) by (rewrite <- mem_bytes_In; congruence). destruct (o_allow o) as [a|].
      * destruct (mem_bytes n a) eqn:Ea; cbn [negb]; (split; [intros Hx|]).
        -- discriminate.
        -- intros [(d' & [= <-] & Hi)|(a' & [= <-] & Hi)]; [contradiction|]. apply mem_bytes_In in Ea. contradiction.
        -- right. exists a. split; [reflexivity|]. rewrite <- mem_bytes_In. congruence.
        -- reflexivity.
      * split; [discriminate|]. intros [(d' & [= <-] & Hi)|(a' & Hx & _)]; [contradiction | discriminate].
  - destruct (o_allow o) as [a|].
    + destruct (mem_bytes n a) eqn:Ea; cbn [negb]; (split; [intros Hx|]).
      * discriminate.
      * intros [(d' & Hx & _)|(a' & [= <-] & Hi)]; [discriminate|]. apply mem_bytes_In in Ea. contradiction.
      * right. exists a. split; [reflexivity|]. rewrite <- mem_bytes_In. congruence.
      * reflexivity.
    + split; [discriminate|]. intros [(d' & Hx & _)|(a' & Hx & _)]; discriminate.
Qed.

Lemma dropped_spec f x : (f_omitNil f && vnil x || f_omitEmpty f && vempty x) = true <-> dropped f x.
Proof. unfold dropped. rewrite orb_true_iff, !andb_true_iff. reflexivity. Qed.

Section Parts.
  Variable H : host.
  Variable vcall : mkind -> typ -> val -> option Z -> bytes + Z.
  Hypothesis OK : host_ok H vcall.
  Variable o : encOpts.
  Variable m : mem.
  Notation E := (h_env H).
  Notation tok := (typ_ok (h_letter H) (h_udigit H)).
  Notation rp := (repr H m).

  (** Memory holds the node. *)
  Definition held (x : node) : Prop := let '(t, _, _, v) := x in tok t /\ exists l, rp l t v.

  Lemma dyn_held w td v ca q : tok td -> (direct H td -> rp (LTmp w 0) td v) -> (~ direct H td -> rp (LMem w) td v) -> held (td, ca, q, v).
  Proof. intros Ht Hd Hn. split; [exact Ht|]. destruct (direct_dec H vcall OK td Ht) as [D|D]; eauto. Qed.

  Lemma any_held e td v ca q : repr_any H m e (VIface td v) -> held (td, ca, q, v).
  Proof. intros Hr. inversion Hr as [|td' w v' Ht _ Hd Hn]; subst. eapply dyn_held; eauto. Qed.

  Lemma field_held k t fs f v ft x ca q l : tok t -> structFields H k t = Some fs -> In f fs -> rp l t v -> field_value H t v f ft x -> held (ft, ca, q, x).
  Proof.
    intros Ht Hs Hf Hr (Ev & Et).
    destruct (field_candidate H vcall OK k t fs f Ht Hs Hf) as (p & sq & w & i & d & u & Ei & Hp & Hw & Hi & Hsq).
    assert (Hu := promoted_type H _ _ _ _ _ _ _ Hp Hi Hw). rewrite <- Ei, Et in Hu. injection Hu as <-.
    assert (Hfo := follow_vget H vcall OK m _ _ _ _ _ _ _ _ _ Hp Hr Hi Hw). rewrite <- Ei, Ev in Hfo. destruct Hfo as (l' & _ & Hx & _).
    split; [eapply type_by_index_ok; eauto | eauto].
  Qed.

  (** A selected field has a value, or a nil pointer is on the way. *)
  Lemma field_cases k t fs f v l : tok t -> structFields H k t = Some fs -> In f fs -> rp l t v ->
    vget (f_index f) v = Some None \/ vget (f_index f) v = None \/ exists ft x, field_value H t v f ft x.
  Proof.
    intros Ht Hs Hf Hr.
    destruct (field_candidate H vcall OK k t fs f Ht Hs Hf) as (p & sq & w & i & d & u & Ei & Hp & Hw & Hi & Hsq).
    assert (Hu := promoted_type H _ _ _ _ _ _ _ Hp Hi Hw). rewrite <- Ei in Hu.
    destruct (vget (f_index f) v) as [[x|]|] eqn:Ev; auto. right. right. exists u, x. split; assumption.
  Qed.

  Lemma child_held x y : held x -> child H o x y -> held y.
  Proof.
    intros Hx Hc. destruct x as [[[t ca] q] v]. destruct Hx as (Ht & l & Hr).
    assert (G := under_ok H (ok_wf _ _ OK) t Ht).
    inversion Hc as [t' ca' q' e v' P U | t' ca' q' td v' P U | t' ca' q' e vs v' P U B I | t' ca' q' n e vs v' P U B I
      | t' ca' q' kt et es k v' P U K I S N | t' ca' q' kt et es k v' P U K I | t' ca' q' fs0 n fs vs f ft x P U S I W
      | ca' q' es kt k v' I S K | ca' q' es k vt v' I]; subst.
    - destruct (inv_ptr _ _ _ _ _ Hr) as (e0 & a & Q1 & Q2 & Q3 & Q4). rewrite U in Q1, G. injection Q1 as <-. split; [exact G | eauto].
    - destruct (inv_iface _ _ _ _ _ _ Hr) as (ms & w & Q1 & Q2 & Q3 & Q4 & Q5 & Q6 & Q7). eapply dyn_held; eauto.
    - destruct (inv_slice _ _ _ _ _ Hr) as (e0 & a & Q1 & Q2 & Q3 & Q4). rewrite U in Q1, G. injection Q1 as <-. split; [exact G|].
      destruct (In_nth_error _ _ I) as [j Hj]. eauto.
    - destruct (inv_arr _ _ _ _ _ Hr) as (e0 & Q1 & Q4). rewrite U in Q1, G. injection Q1 as -> <-. split; [exact G|].
      destruct (In_nth_error _ _ I) as [j Hj]. eauto.
    - destruct (inv_map _ _ _ _ _ Hr) as (k0 & e0 & a & addrs & Q1 & Q2 & Q3 & Q4 & Q5 & Q6). rewrite U in Q1, G. injection Q1 as <- <-.
      destruct G as [G1 G2]. split; [exact G1|]. destruct (In_nth_error _ _ I) as [j Hj]. destruct (nth_error addrs j) as [[ka va]|] eqn:Ej.
      2:{ apply nth_error_None in Ej. assert (j < length es)%nat by (apply nth_error_Some; congruence). lia. }
      destruct (Q6 _ _ _ _ _ Ej Hj) as [W1 W2]. eauto.
    - destruct (inv_map _ _ _ _ _ Hr) as (k0 & e0 & a & addrs & Q1 & Q2 & Q3 & Q4 & Q5 & Q6). rewrite U in Q1, G. injection Q1 as <- <-.
      destruct G as [G1 G2]. split; [exact G2|]. destruct (In_nth_error _ _ I) as [j Hj]. destruct (nth_error addrs j) as [[ka va]|] eqn:Ej.
      2:{ apply nth_error_None in Ej. assert (j < length es)%nat by (apply nth_error_Some; congruence). lia. }
      destruct (Q6 _ _ _ _ _ Ej Hj) as [W1 W2]. eauto.
    - destruct W as (_ & Hfv & _). exact (field_held n t fs f (VStruct vs) ft x ca _ l Ht S I Hr Hfv).
    - destruct (inv_sync H m _ _ _ Hr) as (_ & efs & Q1 & Q2 & Q3). destruct (In_nth_error _ _ I) as [j Hj]. destruct (nth_error efs j) as [[ka va]|] eqn:Ej.
      2:{ apply nth_error_None in Ej. assert (j < length es)%nat by (apply nth_error_Some; congruence). lia. }
      destruct (Q3 _ _ _ _ _ Ej Hj) as [W1 W2]. eapply any_held; eauto.
    - destruct (inv_sync H m _ _ _ Hr) as (_ & efs & Q1 & Q2 & Q3). destruct (In_nth_error _ _ I) as [j Hj]. destruct (nth_error efs j) as [[ka va]|] eqn:Ej.
      2:{ apply nth_error_None in Ej. assert (j < length es)%nat by (apply nth_error_Some; congruence). lia. }
      destruct (Q3 _ _ _ _ _ Ej Hj) as [W1 W2]. eapply any_held; eauto.
  Qed.

  Lemma part_held x y : held x -> part H o x y -> held y.
  Proof. intros Hx Hp. induction Hp as [|x y z Hc _ IH]; [exact Hx|]. apply IH. eapply child_held; eauto. Qed.

  Lemma part_child x y : child H o x y -> part H o x y.
  Proof. intros Hc. eapply part_step; [exact Hc | apply part_refl]. Qed.

  Lemma part_trans x y z : part H o x y -> part H o y z -> part H o x z.
  Proof. induction 1; intros; auto. eapply part_step; eauto. Qed.

  (** Byte strings found in memory. *)
  Lemma vbytes_ok l t e vs b : under E t = TSlice e -> under E e = TInt KUint8 -> rp l t (VSlice vs) -> vbytes vs = Some b -> bytes_ok b.
  Proof.
    intros Hu He Hr Hb. destruct (inv_slice _ _ _ _ _ Hr) as (e0 & a & Q1 & Q2 & Q3 & Q4). rewrite Hu in Q1. injection Q1 as <-.
    assert (G : forall v, In v vs -> exists l', rp l' e v) by (intros v Hv; destruct (In_nth_error _ _ Hv) as [j Hj]; eauto).
    clear Q2 Q4 Hr. revert b Hb. induction vs as [|v vs IH]; intros b Hb; cbn [vbytes] in Hb; [injection Hb as <-; constructor|].
    destruct v; try discriminate. destruct (vbytes vs) as [bs|] eqn:Eb; [|discriminate]. injection Hb as <-.
    constructor; [|apply IH; auto; intros; apply G; right; assumption]. destruct (G (VInt n) (or_introl eq_refl)) as [l' Hl']. eapply repr_byte; eauto.
  Qed.

  Lemma vbytes_arr_ok l t n e vs b : under E t = TArray n e -> under E e = TInt KUint8 -> rp l t (VArr vs) -> vbytes vs = Some b -> bytes_ok b.
  Proof.
    intros Hu He Hr Hb. destruct (inv_arr _ _ _ _ _ Hr) as (e0 & Q1 & Q4). rewrite Hu in Q1. injection Q1 as _ <-.
    assert (G : forall v, In v vs -> exists l', rp l' e v) by (intros v Hv; destruct (In_nth_error _ _ Hv) as [j Hj]; eauto).
    clear Q4 Hr Hu. revert b Hb. induction vs as [|v vs IH]; intros b Hb; cbn [vbytes] in Hb; [injection Hb as <-; constructor|].
    destruct v; try discriminate. destruct (vbytes vs) as [bs|] eqn:Eb; [|discriminate]. injection Hb as <-.
    constructor; [|apply IH; auto; intros; apply G; right; assumption]. destruct (G (VInt n0) (or_introl eq_refl)) as [l' Hl']. eapply repr_byte; eauto.
  Qed.

  (** The name of a selected field. *)
  Lemma field_name_key k t fs f : tok t -> structFields H k t = Some fs -> In f fs -> exists rs, key_name (f_name f) rs.
  Proof.
    intros Ht Hs Hf. destruct (structFields_data H (ok_wf _ _ OK) t Ht k fs f Hs Hf) as (p & sq & w & i & v & opts & A1 & A2 & A3 & _).
    destruct A3 as (fs' & d & n & B1 & B2 & _ & _ & [(Hv & -> & _)|(_ & -> & _)]).
    - eapply valid_name_key; [apply (wf_tables _ (ok_wf _ _ OK)) | exact Hv].
    - assert (Hw : tok w) by (eapply path_ok; eauto; apply (ok_wf _ _ OK)). assert (Gw := under_ok H (ok_wf _ _ OK) w Hw). unfold struct_of in B1. rewrite B1 in Gw.
      apply typ_ok_struct in Gw. rewrite Forall_forall in Gw. specialize (Gw _ (nth_error_In _ _ B2)). cbn [fst snd] in Gw. destruct Gw as (_ & (Hn & rs & Hu & Hi) & _).
      exists rs. split; [exact Hn|]. split; [exact Hu|]. eapply Forall_impl; [|exact Hi]. intros r (Hsc & Hr). unfold key_rune.
      destruct (wf_tables _ (ok_wf _ _ OK)) as (_ & _ & HT). assert (HT' := HT r). split; [exact Hsc|]. destruct Hr as [->|[C|[C|[C|[C|C]]]]]; try lia;
        [destruct (HT' (or_introl C)) as (? & ? & ? & _) | destruct (HT' (or_intror C)) as (? & ? & ? & _)]; auto.
  Qed.
End Parts.
