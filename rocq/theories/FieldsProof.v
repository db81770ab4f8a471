(** The breadth-first search of structFields visits every reachable embedded
    struct once, along a shortest path. *)
From Coq Require Import Permutation Sorted Lia.
From Verif Require Import Base Utf8 OptionsModel TypesModel TypesFacts TagsModel TagsProof MemModel FieldsSpec FieldsModel FieldsSelect.
Local Open Scope nat_scope.

(** ** Well-formed types *)
(** A Go identifier. *)
Definition ident_rune (letter udigit : Z -> bool) (r : Z) : Prop :=
  scalar r /\ (r = 95 \/ 48 <= r <= 57 \/ 65 <= r <= 90 \/ 97 <= r <= 122 \/ letter r = true \/ udigit r = true)%Z.
Definition ident (letter udigit : Z -> bool) (s : bytes) : Prop :=
  s <> [] /\ exists rs, utf8_string s rs /\ Forall (ident_rune letter udigit) rs.

Section TypOk.
  Variables letter udigit : Z -> bool.
  Fixpoint typ_ok (t : typ) : Prop :=
    match t with
    | TPtr t | TSlice t | TArray _ t => typ_ok t
    | TMap k e => typ_ok k /\ typ_ok e
    | TStruct fs =>
      (fix go (l : list (fdecl * typ)) : Prop :=
         match l with
         | [] => True
         | (d, u) :: l' => (bytes_ok (fd_tag d) /\ ident letter udigit (fd_name d) /\ typ_ok u) /\ go l'
         end) fs
    | _ => True
    end.

  Lemma typ_ok_struct fs : typ_ok (TStruct fs) <->
    Forall (fun du => bytes_ok (fd_tag (fst du)) /\ ident letter udigit (fd_name (fst du)) /\ typ_ok (snd du)) fs.
  Proof.
    cbn [typ_ok]. induction fs as [|[d u] fs IH]; [split; auto|].
    split; [intros [H1 H2]; constructor; [exact H1 | apply IH, H2] | intros H; inversion H; subst; split; [assumption | apply IH; assumption]].
  Qed.
End TypOk.

Record wf_host (H : host) : Prop := {
  wf_tables : tables_ok (h_letter H) (h_udigit H);
  wf_names : wf_env (h_env H);
  wf_under : forall n, typ_ok (h_letter H) (h_udigit H) (h_env H n)
}.

Lemma ident_ascii letter udigit s : s <> [] -> Forall (fun c => (c = 95 \/ 48 <= c <= 57 \/ 65 <= c <= 90 \/ 97 <= c <= 122)%Z) s -> ident letter udigit s.
Proof.
  intros Hn Hf. split; [assumption|]. exists s. clear Hn. split.
  - induction Hf as [|c s Hc _ IH]; [constructor|].
    replace (c :: s) with (utf8 c ++ s) at 1 by (unfold utf8; destruct (c <? 0x80)%Z eqn:Ec; [reflexivity | lia]).
    constructor; [unfold scalar; lia | exact IH].
  - eapply Forall_impl; [|exact Hf]. cbn. intros c Hc. split; [|tauto]. unfold scalar. lia.
Qed.

Section BFS.
  Variable H : host.
  Hypothesis WF : wf_host H.
  Let E := h_env H.
  Let letter := h_letter H.
  Let udigit := h_udigit H.
  Notation tok := (typ_ok letter udigit).

  Lemma under_ok t : tok t -> tok (under E t).
  Proof.
    intros Ht. destruct t; try exact Ht; try exact I; [apply (wf_under H WF) | |]; apply typ_ok_struct; repeat constructor; cbn;
      try (apply ident_ascii; [discriminate | repeat constructor; lia]); try exact I; try discriminate; try (apply ident_ascii; [discriminate | repeat constructor; lia]); auto.
  Qed.

  Lemma fields_of_ok t : tok t ->
    Forall (fun du => bytes_ok (fd_tag (fst du)) /\ ident letter udigit (fd_name (fst du)) /\ tok (snd du)) (fields_of H t).
  Proof.
    intros Ht. apply under_ok in Ht. unfold fields_of. fold E. destruct (under E t); try constructor. apply typ_ok_struct, Ht.
  Qed.

  Lemma strip_ptr_ok t : tok t -> tok (strip_ptr t).
  Proof. destruct t; auto. Qed.

  Lemma is_struct_iff t : is_struct H t = true <-> structural E t.
  Proof.
    unfold is_struct, structural, struct_of. fold E. destruct (under E t); split; try discriminate; try (intros (? & ?); discriminate).
    - intros _. eexists. reflexivity.
    - reflexivity.
  Qed.

  Lemma deref_iff u t : deref u t <-> t = strip_ptr u.
  Proof.
    unfold deref. destruct u; cbn; split; try (intros [?|(? & ?)]; congruence); try (intros ->; right; split; [congruence | reflexivity]).
    - intros ->. left. reflexivity.
  Qed.

  Lemma should_encode_iff d u : should_encode H d u = true <->
    (fd_unexported d = false \/ (fd_anon d = true /\ (structural E u \/ exists e, under E u = TPtr e /\ structural E e))).
  Proof.
    unfold should_encode. fold E. destruct (fd_anon d) eqn:Ha.
    - destruct (fd_unexported d); cbn [andb]; [|split; auto].
      split.
      + intros Hs. right. split; auto.
        destruct (under E u) eqn:Eu; try (left; apply is_struct_iff; destruct (is_struct H u); auto; discriminate).
        right. exists t. split; auto. apply is_struct_iff. destruct (is_struct H t); auto; discriminate.
      + intros [Hc | (_ & [Hs | (e & He & Hs)])]; [discriminate | |].
        * assert (under E u <> TPtr u /\ exists fs, under E u = TStruct fs) as (_ & fs & Hfs).
          { destruct Hs as (fs & Hfs). unfold struct_of in Hfs. rewrite Hfs. split; [discriminate | eauto]. }
          rewrite Hfs. apply is_struct_iff in Hs. rewrite Hs. reflexivity.
        * rewrite He. apply is_struct_iff in Hs. rewrite Hs. reflexivity.
    - destruct (fd_unexported d); split; auto; try discriminate. intros [Hc|(Hc & _)]; discriminate.
  Qed.

  (** What classify says in terms of the specification. *)
  Lemma classify_embed d u : bytes_ok (fd_tag d) ->
    (classify H d u = FEmbed <->
     takes_part E d u /\ fd_anon d = true /\ structural E (strip_ptr u) /\
     exists n opts, tag_name d n opts /\ ~ valid_name letter udigit n).
  Proof.
    intros Hb. unfold classify, takes_part. destruct (should_encode H d u) eqn:Es; cbn [negb].
    2:{ split; [discriminate|]. intros ((C & _) & _). apply should_encode_iff in C. congruence. }
    apply should_encode_iff in Es. destruct (bytes_eqb (fd_tag d) [45%Z]) eqn:Et.
    { apply bytes_eqb_eq in Et. split; [discriminate|]. intros ((_ & C) & _). exfalso. apply C. exact Et. }
    apply bytes_eqb_neq in Et. destruct (parse_tag (fd_tag d)) as [n opts] eqn:Ep.
    pose proof (proj1 (parse_tag_spec _ _ _) Ep) as Hp. destruct Hp as (Hj & Hn & Ho).
    assert (Hbn : bytes_ok n).
    { rewrite Hj in Hb. destruct opts; cbn [join] in Hb; [exact Hb | apply Forall_app in Hb; apply Hb]. }
    pose proof (is_valid_field_name_spec letter udigit n (wf_tables H WF) Hbn) as Hv. fold letter udigit.
    destruct (is_valid_field_name letter udigit n) eqn:Ev.
    - assert (Vn : valid_name letter udigit n) by (apply Hv; reflexivity).
      replace (bytes_eqb n []) with false by (symmetry; apply bytes_eqb_neq; apply Vn). cbn [negb orb].
      split; [discriminate|]. intros (_ & _ & _ & n' & opts' & Ht' & Nv). exfalso. apply Nv.
      assert (parse_tag (fd_tag d) = (n', opts')) as Eq by (apply parse_tag_spec; exact Ht'). congruence.
    - rewrite bytes_eqb_refl. cbn [negb orb]. destruct (fd_anon d) eqn:Ea; cbn [negb orb].
      + destruct (is_struct H (strip_ptr u)) eqn:Eis; cbn [negb].
        * apply is_struct_iff in Eis. split; [|reflexivity]. intros _. repeat split; auto. exists n, opts.
          split; [repeat split; auto|]. intros V. apply Hv in V. discriminate.
        * split; [discriminate|]. intros (_ & _ & Hs & _). apply is_struct_iff in Hs. congruence.
      + split; [discriminate|]. intros (_ & C & _). discriminate.
  Qed.

  Lemma classify_record d u name tagged opts : bytes_ok (fd_tag d) ->
    (classify H d u = FRecord name tagged opts <->
     takes_part E d u /\ exists n, tag_name d n opts /\
      ((valid_name letter udigit n /\ name = n /\ tagged = true) \/
       (~ valid_name letter udigit n /\ name = fd_name d /\ tagged = false /\
        (fd_anon d = true -> forall t', deref u t' -> ~ structural E t')))).
  Proof.
    intros Hb. unfold classify, takes_part. destruct (should_encode H d u) eqn:Es; cbn [negb].
    2:{ split; [discriminate|]. intros ((C & _) & _). apply should_encode_iff in C. congruence. }
    apply should_encode_iff in Es. destruct (bytes_eqb (fd_tag d) [45%Z]) eqn:Et.
    { apply bytes_eqb_eq in Et. split; [discriminate|]. intros ((_ & C) & _). exfalso. apply C. exact Et. }
    apply bytes_eqb_neq in Et. destruct (parse_tag (fd_tag d)) as [n opts0] eqn:Ep.
    pose proof (proj1 (parse_tag_spec _ _ _) Ep) as Hp. destruct Hp as (Hj & Hn & Ho).
    assert (Hbn : bytes_ok n).
    { rewrite Hj in Hb. destruct opts0; cbn [join] in Hb; [exact Hb | apply Forall_app in Hb; apply Hb]. }
    pose proof (is_valid_field_name_spec letter udigit n (wf_tables H WF) Hbn) as Hv. fold letter udigit.
    assert (Hu : forall n', tag_name d n' opts -> n' = n /\ opts = opts0).
    { intros n' Ht'. assert (parse_tag (fd_tag d) = (n', opts)) as Eq by (apply parse_tag_spec; exact Ht'). rewrite Ep in Eq. split; congruence. }
    assert (HT : tag_name d n opts0) by (repeat split; auto).
    destruct (is_valid_field_name letter udigit n) eqn:Ev.
    - assert (Vn : valid_name letter udigit n) by (apply Hv; reflexivity).
      replace (bytes_eqb n []) with false by (symmetry; apply bytes_eqb_neq; apply Vn). cbn [negb orb].
      split.
      + intros Eq. injection Eq as <- <- <-. split; [split; auto|]. exists n. split; [exact HT|]. left. auto.
      + intros (_ & n' & Ht' & C). destruct (Hu _ Ht') as (-> & ->). destruct C as [(_ & -> & ->) | (C & _)]; [reflexivity | contradiction].
    - assert (Vn : ~ valid_name letter udigit n) by (intros V; apply Hv in V; discriminate).
      rewrite bytes_eqb_refl. cbn [negb orb].
      assert (G : (forall t', deref u t' -> ~ structural E t') <-> is_struct H (strip_ptr u) = false).
      { split.
        - intros G. destruct (is_struct H (strip_ptr u)) eqn:Eis; auto. apply is_struct_iff in Eis. exfalso. eapply G; [|exact Eis]. apply deref_iff. reflexivity.
        - intros Eis t' Hd Hs. apply deref_iff in Hd. subst. apply is_struct_iff in Hs. congruence. }
      destruct (fd_anon d) eqn:Ea; cbn [negb orb].
      + destruct (is_struct H (strip_ptr u)) eqn:Eis; cbn [negb].
        * split; [discriminate|]. intros (_ & n' & Ht' & C). destruct (Hu _ Ht') as (-> & ->).
          destruct C as [(V & _)|(_ & _ & _ & C)]; [contradiction|]. apply G in C; [discriminate|reflexivity].
        * split.
          -- intros Eq. injection Eq as <- <- <-. split; [split; auto|]. exists n. split; [exact HT|]. right. repeat split; auto. intros _. apply G. reflexivity.
          -- intros (_ & n' & Ht' & C). destruct (Hu _ Ht') as (-> & ->). destruct C as [(V & _)|(_ & -> & -> & _)]; [contradiction | reflexivity].
      + split.
        * intros Eq. injection Eq as <- <- <-. split; [split; auto|]. exists n. split; [exact HT|]. right. repeat split; auto. discriminate.
        * intros (_ & n' & Ht' & C). destruct (Hu _ Ht') as (-> & ->). destruct C as [(V & _)|(_ & -> & -> & _)]; [contradiction | reflexivity].
  Qed.

  (** Edges and records read off the field lists. *)
  Definition edge (w : typ) (i : nat) (b : bool) (u : typ) : Prop :=
    exists d v, nth_error (fields_of H w) i = Some (d, v) /\ classify H d v = FEmbed /\ u = strip_ptr v /\ b = is_ptr H v.
  Definition recd (w : typ) (i : nat) (v : typ) (name : bytes) (tagged : bool) (opts : list bytes) : Prop :=
    exists d, nth_error (fields_of H w) i = Some (d, v) /\ classify H d v = FRecord name tagged opts.

  Lemma nth_fields_struct w i x : nth_error (fields_of H w) i = Some x -> struct_of E w (fields_of H w).
  Proof. unfold fields_of, struct_of. fold E. destruct (under E w); try (destruct i; discriminate). reflexivity. Qed.

  Lemma struct_fields w fs : struct_of E w fs -> fs = fields_of H w.
  Proof. unfold struct_of, fields_of. fold E. intros ->. reflexivity. Qed.

  Lemma nth_fields_ok w i d v : tok w -> nth_error (fields_of H w) i = Some (d, v) ->
    bytes_ok (fd_tag d) /\ ident letter udigit (fd_name d) /\ tok v.
  Proof. intros Hw Hn. pose proof (fields_of_ok w Hw) as Hf. rewrite Forall_forall in Hf. apply (Hf (d, v)). eapply nth_error_In; eauto. Qed.

  Lemma is_ptr_iff u : is_ptr H u = true <-> exists e, under E u = TPtr e.
  Proof. unfold is_ptr. fold E. destruct (under E u); split; try discriminate; try (intros (? & ?); discriminate); eauto. Qed.

  Lemma edge_iff w i b u : tok w -> (edge w i b u <-> embeds E letter udigit w i b u).
  Proof.
    intros Hw. split.
    - intros (d & v & Hn & Hc & -> & ->). destruct (nth_fields_ok _ _ _ _ Hw Hn) as (Hb & _ & _).
      apply (classify_embed d v Hb) in Hc. destruct Hc as (H1 & H2 & H3 & n & opts & H4 & H5).
      exists (fields_of H w), d, v, n, opts. split; [eapply nth_fields_struct; eauto|].
      split; [assumption|]. split; [assumption|]. split; [assumption|]. split; [assumption|]. split; [assumption|].
      split; [apply deref_iff; reflexivity|]. split; [assumption|]. apply is_ptr_iff.
    - intros (fs & d & v & n & opts & Hs & Hn & H1 & H2 & H4 & H5 & H6 & H7 & H8). pose proof (struct_fields _ _ Hs) as Ef. subst fs.
      destruct (nth_fields_ok _ _ _ _ Hw Hn) as (Hb & _ & _). apply deref_iff in H6. subst u.
      exists d, v. split; [assumption|]. split.
      + apply (classify_embed d v Hb). repeat split; auto; try apply H1. exists n, opts. auto.
      + split; [reflexivity|]. rewrite <- is_ptr_iff in H8. destruct b, (is_ptr H v); tauto || (destruct H8 as [A B]; try (specialize (A eq_refl)); try (specialize (B eq_refl)); congruence).
  Qed.

  Lemma recd_iff w i v name tagged opts : tok w -> (recd w i v name tagged opts <-> candidate_here E letter udigit w i v name tagged opts).
  Proof.
    intros Hw. split.
    - intros (d & Hn & Hc). destruct (nth_fields_ok _ _ _ _ Hw Hn) as (Hb & _ & _).
      apply (classify_record d v name tagged opts Hb) in Hc. destruct Hc as (H1 & n & H2 & H3).
      exists (fields_of H w), d, n. split; [eapply nth_fields_struct; eauto|]. auto.
    - intros (fs & d & n & Hs & Hn & H1 & H2 & H3). pose proof (struct_fields _ _ Hs) as Ef. subst fs.
      destruct (nth_fields_ok _ _ _ _ Hw Hn) as (Hb & _ & _). exists d. split; [assumption|].
      apply (classify_record d v name tagged opts Hb). split; [assumption|]. exists n. auto.
  Qed.

  Lemma edge_ok w i b u : tok w -> edge w i b u -> tok u.
  Proof. intros Hw (d & v & Hn & _ & -> & _). apply strip_ptr_ok. eapply nth_fields_ok; eauto. Qed.

  (** ** Paths *)
  Variable t : typ.
  Hypothesis Tok : tok t.
  Notation path := (epath E (h_off H) letter udigit t).

  Lemma path_ok p sq u : path p sq u -> tok u.
  Proof. induction 1 as [|p sq w i b fs u _ IH He Hs]; [exact Tok|]. eapply edge_ok; [exact IH|]. apply edge_iff; eauto. Qed.

  Lemma edge_det w i b u b' u' : edge w i b u -> edge w i b' u' -> b = b' /\ u = u'.
  Proof. intros (d & v & H1 & _ & -> & ->) (d' & v' & H1' & _ & -> & ->). assert (v = v') by congruence. subst. auto. Qed.

  Lemma path_det p sq u : path p sq u -> forall sq' u', path p sq' u' -> sq = sq' /\ u = u'.
  Proof.
    induction 1 as [|p sq w i b fs u Hp IH He Hs]; intros sq' u' Hp'.
    - inversion Hp' as [|q sq2 w2 i2 b2 fs2 u2 ? ? ? Hq]; subst; [auto|]. destruct q; discriminate.
    - inversion Hp' as [Hq|q sq2 w2 i2 b2 fs2 u2 Hp2 He2 Hs2 Hq]; subst; [destruct p; discriminate|].
      apply app_inj_tail in Hq. destruct Hq as (-> & ->). destruct (IH _ _ Hp2) as (-> & ->).
      apply edge_iff in He; [|eapply path_ok; eauto]. apply edge_iff in He2; [|eapply path_ok; eauto].
      destruct (edge_det _ _ _ _ _ _ He He2) as (-> & ->). apply struct_fields in Hs. apply struct_fields in Hs2. subst. auto.
  Qed.

  Lemma path_snoc p sq w i b u : path p sq w -> edge w i b u -> path (p ++ [i]) (sq ++ [(h_off H (fields_of H w) i, b)]) u.
  Proof.
    intros Hp He. assert (tok w) by (eapply path_ok; eauto). econstructor; [exact Hp | apply edge_iff; eauto |].
    destruct He as (d & v & Hn & _). eapply nth_fields_struct; eauto.
  Qed.

  Lemma path_snoc_inv p i sq u : path (p ++ [i]) sq u -> exists sq' w b, path p sq' w /\ edge w i b u /\ sq = sq' ++ [(h_off H (fields_of H w) i, b)].
  Proof.
    intros Hp. inversion Hp as [Hq|q sq2 w2 i2 b2 fs2 u2 Hp2 He2 Hs2 Hq]; subst; [destruct p; discriminate|].
    apply app_inj_tail in Hq. destruct Hq as (-> & ->). exists sq2, w2, b2. split; [assumption|].
    split; [apply edge_iff; [eapply path_ok; eauto | assumption]|]. apply struct_fields in Hs2. subst. reflexivity.
  Qed.

  Definition reach (n : nat) (u : typ) : Prop := exists p sq, path p sq u /\ length p = n.
  Definition dist (u : typ) (n : nat) : Prop := reach n u /\ forall n', n' < n -> ~ reach n' u.

  Lemma dist_det u n m : dist u n -> dist u m -> n = m.
  Proof. intros (H1 & H2) (H3 & H4). destruct (Nat.lt_trichotomy n m) as [C|[C|C]]; auto; exfalso; [eapply H4 | eapply H2]; eauto. Qed.

  Lemma reach_step n w i b u : reach n w -> edge w i b u -> reach (S n) u.
  Proof. intros (p & sq & Hp & Hl) He. eexists _, _. split; [eapply path_snoc; eauto|]. rewrite app_length. cbn. lia. Qed.

  Lemma reach_step_inv n u : reach (S n) u -> exists w i b, reach n w /\ edge w i b u.
  Proof.
    intros (p & sq & Hp & Hl). destruct (exists_last (l := p)) as (q & i & ->); [destruct p; discriminate|].
    destruct (path_snoc_inv _ _ _ _ Hp) as (sq' & w & b & Hq & He & _). exists w, i, b. split; [|assumption].
    exists q, sq'. split; [assumption|]. rewrite app_length in Hl. cbn in Hl. lia.
  Qed.

  Lemma dist_step_inv n u : dist u (S n) -> exists w i b, dist w n /\ edge w i b u.
  Proof.
    intros (Hr & Hm). destruct (reach_step_inv _ _ Hr) as (w & i & b & Hw & He). exists w, i, b. split; [|assumption].
    split; [assumption|]. intros n' Hn' C. apply (Hm (S n')); [lia|]. eapply reach_step; eauto.
  Qed.

  Lemma dist_below n u : dist u n -> forall m, m <= n -> exists v, dist v m.
  Proof.
    revert u. induction n as [|n IH]; intros u Hu m Hm; [replace m with 0 by lia; eauto|].
    destruct (Nat.eq_dec m (S n)) as [->|]; [eauto|]. destruct (dist_step_inv _ _ Hu) as (w & _ & _ & Hw & _). eapply IH; eauto. lia.
  Qed.

  (** Distances exist: the types at the end of paths of a given length can be listed. *)
  Fixpoint edges_from (i : nat) (fs : list (fdecl * typ)) : list typ :=
    match fs with
    | [] => []
    | (d, v) :: fs' => match classify H d v with FEmbed => [strip_ptr v] | _ => [] end ++ edges_from (S i) fs'
    end.
  Fixpoint at_level (n : nat) : list typ :=
    match n with O => [t] | S n' => flat_map (fun w => edges_from 0 (fields_of H w)) (at_level n') end.

  Lemma edges_from_In u fs : forall i, In u (edges_from i fs) <-> exists k d v, nth_error fs k = Some (d, v) /\ classify H d v = FEmbed /\ u = strip_ptr v.
  Proof.
    induction fs as [|[d v] fs IH]; intros i; cbn [edges_from].
    - split; [intros [] | intros ([|k] & ? & ? & C & _); discriminate].
    - rewrite in_app_iff, IH. split.
      + intros [Hu | (k & R)]; [|exists (S k); exact R]. exists 0, d, v. destruct (classify H d v); try destruct Hu as [Hu|[]]; try contradiction. auto.
      + intros ([|k] & d' & v' & Hn & Hc & Hu); [|right; exists k, d', v'; auto]. injection Hn as -> ->. left. rewrite Hc. left. auto.
  Qed.

  Lemma at_level_iff n : forall u, In u (at_level n) <-> reach n u.
  Proof.
    induction n as [|n IH]; intros u; cbn [at_level].
    - split.
      + intros [<-|[]]. exists [], []. split; [constructor | reflexivity].
      + intros (p & sq & Hp & Hl). destruct p; [|discriminate]. left. inversion Hp; subst; auto. destruct p; discriminate.
    - rewrite in_flat_map. split.
      + intros (w & Hw & Hu). apply IH in Hw. apply edges_from_In in Hu. destruct Hu as (k & d & v & Hn & Hc & ->).
        eapply reach_step; [exact Hw|]. exists d, v. split; [exact Hn|]. split; [exact Hc|]. split; reflexivity.
      + intros Hr. apply reach_step_inv in Hr. destruct Hr as (w & i & b & Hw & d & v & Hn & Hc & -> & ->). exists w.
        split; [apply IH, Hw|]. apply edges_from_In. exists i, d, v. auto.
  Qed.

  Lemma reach_dist n u : reach n u -> exists m, m <= n /\ dist u m.
  Proof.
    revert u. induction n as [n IH] using lt_wf_ind. intros u Hr.
    assert (D : forall k, (exists m, m < k /\ reach m u) \/ (forall m, m < k -> ~ reach m u)).
    { induction k as [|k [(m & Hm & Hk)|Hk]]; [right; intros; lia | left; exists m; auto|].
      destruct (in_dec typ_eq_dec u (at_level k)) as [Hi|Hi]; rewrite at_level_iff in Hi; [left; exists k; auto|].
      right. intros m Hm. destruct (Nat.eq_dec m k) as [->|]; [exact Hi | apply Hk; lia]. }
    destruct (D n) as [(m & Hm & Hk)|Hk].
    - destruct (IH m Hm u Hk) as (m' & Hm' & Hd). exists m'. split; [lia | exact Hd].
    - exists n. split; [lia|]. split; assumption.
  Qed.

  Notation steady := (unshared E (h_off H) letter udigit t).

  (** The capacity of a slice grown to n elements by [sl_append], from nil. *)
  Fixpoint cap_of (n : nat) : nat :=
    match n with O => 0 | S n' => if cap_of n' =? n' then grow n' else cap_of n' end.

  Lemma cap_of_bounds n : n <= cap_of n /\ (0 < n -> cap_of n < 2 * n /\ exists k, cap_of n = 2 ^ k).
  Proof.
    induction n as [|n (IH1 & IH2)]; [cbn; lia|]. cbn [cap_of]. destruct (Nat.eqb_spec (cap_of n) n) as [Ec|Ec].
    - destruct n as [|n]; [cbn; split; [lia|]; intros _; split; [lia|]; exists 0; reflexivity|].
      destruct (IH2 ltac:(lia)) as (_ & k & Ek). unfold grow. split; [lia|]. intros _. split; [lia|].
      exists (S k). rewrite Nat.pow_succ_r', <- Ek, Ec. reflexivity.
    - split; [lia|]. intros _. destruct n as [|n]; [cbn in Ec; lia|]. destruct (IH2 ltac:(lia)) as (A & B). split; [lia | exact B].
  Qed.

  Lemma cap_of_roomless n : cap_of n = n <-> roomless n.
  Proof.
    destruct (cap_of_bounds n) as (A & B). split.
    - intros Ec. destruct n as [|n]; [left; reflexivity|]. right. destruct (B ltac:(lia)) as (_ & k & Ek). exists k. congruence.
    - intros [-> | (k & ->)]; [reflexivity|]. pose proof (Nat.pow_nonzero 2 k ltac:(lia)) as Nz.
      destruct (B ltac:(lia)) as (C & j & Ej). rewrite Ej in *. f_equal. assert (k <= j) by (apply (Nat.pow_le_mono_r_iff 2); lia).
      assert (j < S k) by (apply (Nat.pow_lt_mono_r_iff 2); [lia | rewrite Nat.pow_succ_r'; lia]). lia.
  Qed.

  (** A good entry of a level: its index is a path; its slice has the length of
      the path and holds its steps unless they may have been written over. *)
  Definition bgood (h : heap) (b : bfield) : Prop :=
    exists sq, path (b_index b) sq (b_typ b) /\
      (steady (b_index b) -> sl_read h (b_seq b) = sq) /\
      sl_len (b_seq b) = length (b_index b) /\ sl_arr (b_seq b) < length h /\
      length (nth (sl_arr (b_seq b)) h []) = cap_of (sl_len (b_seq b)).

  (** The first n slots of the backing arrays are unchanged. *)
  Definition stable (n : nat) (h h' : heap) : Prop :=
    length h <= length h' /\ forall a, a < length h ->
      length (nth a h' []) = length (nth a h []) /\ firstn n (nth a h' []) = firstn n (nth a h []).

  Lemma stable_refl n h : stable n h h. Proof. split; auto. Qed.
  Lemma stable_trans n h1 h2 h3 : stable n h1 h2 -> stable n h2 h3 -> stable n h1 h3.
  Proof. intros (L1 & S1) (L2 & S2). split; [lia|]. intros a Ha. destruct (S1 a Ha), (S2 a ltac:(lia)). split; congruence. Qed.

  Lemma bgood_stable n h h' b : stable n h h' -> length (b_index b) = n -> bgood h b -> bgood h' b.
  Proof.
    intros (L & S) Hn (sq & H1 & H2 & H3 & H4 & H5). exists sq. destruct (S _ H4) as (E1 & E2). rewrite E1.
    repeat split; auto; try lia. intros Hs. rewrite <- (H2 Hs). unfold sl_read. rewrite H3, Hn. exact E2.
  Qed.

  Lemma set_elt_length {A} (l : list A) i x : length (set_elt l i x) = length l.
  Proof. revert i. induction l as [|y l IH]; intros [|i]; cbn; auto. Qed.
  Lemma set_elt_firstn {A} (l : list A) i x n : n <= i -> firstn n (set_elt l i x) = firstn n l.
  Proof. revert i n. induction l as [|y l IH]; intros [|i] [|n] Hn; cbn; auto; try lia. f_equal. apply IH. lia. Qed.
  Lemma set_elt_nth {A} (l : list A) i x j d : nth j (set_elt l i x) d = if (j =? i) && (i <? length l) then x else nth j l d.
  Proof.
    revert i j. induction l as [|y l IH]; intros [|i] [|j]; cbn [set_elt nth length]; auto; try (rewrite andb_false_r; reflexivity).
    rewrite IH. destruct (j =? i) eqn:E1, (i <? length l) eqn:E2; cbn [andb]; auto;
      rewrite ?Nat.eqb_eq, ?Nat.eqb_neq, ?Nat.ltb_lt, ?Nat.ltb_ge in *;
      destruct (Nat.eqb_spec (S j) (S i)), (Nat.ltb_spec (S i) (S (length l))); cbn [andb]; auto; lia.
  Qed.

  Lemma grow_gt c : S c <= grow c. Proof. unfold grow. destruct c; lia. Qed.

  (** append to a slice of n elements: the first n slots of all arrays stay; the
      new slice is in a new array when the old one was full, else in the same. *)
  Lemma append_good n h s x h' s' : sl_append h s x = (h', s') -> sl_len s = n -> sl_arr s < length h ->
    length (nth (sl_arr s) h []) = cap_of n ->
    stable n h h' /\ sl_len s' = S n /\ sl_arr s' < length h' /\ length (nth (sl_arr s') h' []) = cap_of (S n) /\
    sl_read h' s' = sl_read h s ++ [x] /\
    (cap_of n = n -> sl_arr s' = length h) /\ (cap_of n <> n -> sl_arr s' = sl_arr s) /\
    (forall a, a < length h -> (cap_of n <> n -> a <> sl_arr s) -> nth a h' [] = nth a h []).
  Proof.
    intros Ha Hn Hb Hd. unfold sl_append in Ha. set (a := nth (sl_arr s) h []) in *. destruct (cap_of_bounds n) as (Hc & _). cbn [cap_of].
    destruct (sl_len s <? length a) eqn:El.
    - apply Nat.ltb_lt in El. injection Ha as <- <-. cbn [sl_arr sl_len].
      destruct (Nat.eqb_spec (cap_of n) n) as [Q|Q]; [lia|].
      assert (Hq : nth (sl_arr s) (set_elt h (sl_arr s) (set_elt a (sl_len s) x)) [] = set_elt a (sl_len s) x).
      { rewrite set_elt_nth, Nat.eqb_refl. replace (sl_arr s <? length h) with true by (symmetry; apply Nat.ltb_lt; lia). reflexivity. }
      rewrite Hq, !set_elt_length. split; [|split; [|split; [|split; [|split; [|split; [|split]]]]]]; auto; try lia.
      + split; [rewrite set_elt_length; lia|]. intros k Hk. rewrite set_elt_nth.
        destruct (Nat.eqb_spec k (sl_arr s)) as [->|]; cbn [andb]; auto.
        replace (sl_arr s <? length h) with true by (symmetry; apply Nat.ltb_lt; lia). fold a.
        rewrite set_elt_length. split; auto. apply set_elt_firstn. lia.
      + unfold sl_read. cbn [sl_arr sl_len]. rewrite Hq. fold a. clear - El. revert El. generalize (sl_len s) as n. clearbody a.
        induction a as [|y a IH]; intros n Hn; [cbn in Hn; lia|]. destruct n as [|n]; [reflexivity|].
        cbn [set_elt firstn app]. f_equal. apply IH. cbn in Hn. lia.
      + intros k Hk Hne. rewrite set_elt_nth. destruct (Nat.eqb_spec k (sl_arr s)) as [->|]; cbn [andb]; auto. destruct (Hne Q eq_refl).
    - apply Nat.ltb_ge in El. injection Ha as <- <-. cbn [sl_arr sl_len].
      assert (Q : cap_of n = n) by lia. rewrite Q, Nat.eqb_refl. assert (Hl : sl_len s = length a) by lia. rewrite nth_middle.
      assert (Hfa : firstn (sl_len s) a = a) by (rewrite Hl; apply firstn_all). rewrite Hfa.
      assert (Hlen : length (a ++ x :: repeat (0%Z, false) (grow (length a) - S (sl_len s))) = grow n).
      { rewrite app_length. cbn [length]. rewrite repeat_length. pose proof (grow_gt (length a)). replace (length a) with n in * by lia. lia. }
      rewrite Hlen, app_length. cbn [length].
      split; [|split; [|split; [|split; [|split; [|split; [|split]]]]]]; auto; try lia.
      + split; [rewrite app_length; lia|]. intros k Hk. rewrite app_nth1 by lia. auto.
      + unfold sl_read. cbn [sl_arr sl_len]. rewrite nth_middle. fold a. rewrite Hfa, Hl.
        rewrite firstn_app. replace (S (length a) - length a) with 1 by lia. rewrite (firstn_all2 a) by lia. reflexivity.
      + intros k Hk _. apply app_nth1. exact Hk.
  Qed.

  (** ** One level, as a list of steps *)
  Record step := mkStep { p_f : bfield; p_dup : bool; p_i : nat; p_d : fdecl; p_u : typ }.
  Definition do_step (st : sstate) (s : step) : sstate :=
    scan1 H (p_f s) (p_dup s) (p_i s) (p_d s) (p_u s) (h_off H (fields_of H (b_typ (p_f s))) (p_i s)) st.
  Fixpoint steps_from (f : bfield) (dup : bool) (i : nat) (fs : list (fdecl * typ)) : list step :=
    match fs with [] => [] | (d, u) :: fs' => mkStep f dup i d u :: steps_from f dup (S i) fs' end.
  Definition steps_of (f : bfield) (dup : bool) := steps_from f dup 0 (fields_of H (b_typ f)).
  Definition fresh (seen : list typ) (curr : list bfield) : list bfield :=
    filter (fun f => negb (existsb (typ_eqb (b_typ f)) seen)) curr.
  Definition level_steps (ccnt seen : list typ) (curr : list bfield) : list step :=
    flat_map (fun f => steps_of f (1 <? count (b_typ f) ccnt)) (fresh seen curr).

  Lemma scan_loop_steps f dup i fs st : scan_loop H f dup (fields_of H (b_typ f)) i fs st = fold_left do_step (steps_from f dup i fs) st.
  Proof. revert i st. induction fs as [|[d u] fs IH]; intros i st; cbn; [reflexivity|]. apply IH. Qed.

  Lemma existsb_typ u l : existsb (typ_eqb u) l = true <-> In u l.
  Proof.
    rewrite existsb_exists. split; [intros (x & Hx & He); apply typ_eqb_eq in He; congruence | intros Hu; exists u; split; [assumption | apply typ_eqb_refl]].
  Qed.

  Lemma fresh_weaken seen curr x : ~ In x (map b_typ curr) -> fresh (x :: seen) curr = fresh seen curr.
  Proof.
    induction curr as [|f curr IH]; intros Hx; [reflexivity|]. cbn [fresh filter existsb]. unfold fresh in IH. cbn [existsb] in IH.
    cbn [map In] in Hx. replace (typ_eqb (b_typ f) x) with false by (symmetry; apply typ_eqb_neq; tauto). cbn [orb].
    rewrite IH by tauto. reflexivity.
  Qed.

  Lemma level_eq ccnt curr : NoDup (map b_typ curr) -> forall seen st,
    level H ccnt curr seen st = (rev (map b_typ (fresh seen curr)) ++ seen, fold_left do_step (level_steps ccnt seen curr) st).
  Proof.
    induction curr as [|f curr IH]; intros Hnd seen st; [reflexivity|]. inversion Hnd as [|? ? Hni Hnd']; subst.
    cbn [level]. unfold level_steps. cbn [fresh filter]. destruct (existsb (typ_eqb (b_typ f)) seen) eqn:Es; cbn [negb].
    - apply IH. exact Hnd'.
    - rewrite IH by exact Hnd'. unfold level_steps. rewrite fresh_weaken by exact Hni. cbn [flat_map map rev].
      fold (fresh seen curr). rewrite <- app_assoc. cbn [app]. f_equal. rewrite fold_left_app. f_equal.
      unfold scanFields, steps_of. apply scan_loop_steps.
  Qed.

  Lemma steps_from_In f dup fs : forall i s, In s (steps_from f dup i fs) <->
    exists k d u, nth_error fs k = Some (d, u) /\ s = mkStep f dup (i + k) d u.
  Proof.
    induction fs as [|[d u] fs IH]; intros i s; cbn [steps_from In].
    - split; [intros [] | intros (k & d & u & C & _); destruct k; discriminate].
    - rewrite IH. split.
      + intros [<- | (k & d' & u' & Hn & ->)]; [exists 0, d, u; rewrite Nat.add_0_r; auto|].
        exists (S k), d', u'. split; auto. f_equal. lia.
      + intros (k & d' & u' & Hn & ->). destruct k as [|k].
        * left. injection Hn as -> ->. f_equal. lia.
        * right. exists k, d', u'. split; auto. f_equal. lia.
  Qed.

  (** ** Entries: recorded fields with the type and position they come from *)
  Record entry := mkEntry { e_w : typ; e_i : nat; e_x : field; e_dup : bool }.
  Definition dupl (e : entry) : list field := if e_dup e then [e_x e; e_x e] else [e_x e].
  Definition e_key (e : entry) : typ * nat := (e_w e, e_i e).

  (** Two different last steps of shortest paths to u. *)
  Definition dup2 (u : typ) (n : nat) : Prop :=
    exists m w i b w' i' b', S m = n /\ dist w m /\ dist w' m /\ edge w i b u /\ edge w' i' b' u /\ (w, i) <> (w', i').

  Definition entry_match (p : list nat) (sq : list seqelt) (e : entry) : Prop :=
    exists v opts, recd (e_w e) (e_i e) v (f_name (e_x e)) (f_tag (e_x e)) opts /\
      f_index (e_x e) = p ++ [e_i e] /\
      f_quoted (e_x e) = (tag_contains opts (lit "string") && isBasicType E (strip_ptr v)) /\
      f_omitEmpty (e_x e) = tag_contains opts (lit "omitempty") /\ f_omitNil (e_x e) = tag_contains opts (lit "omitnil") /\
      (steady p -> f_seq (e_x e) = sq ++ [(h_off H (fields_of H (e_w e)) (e_i e), false)]).

  (** p comes first, in lexicographic order, among the paths of its length to w. *)
  Definition first_path (p : list nat) (w : typ) : Prop :=
    forall q sq, path q sq w -> length q = length p -> q = p \/ index_less p q = true.

  Lemma index_less_snoc p q i j : length p = length q -> index_less p q = true -> index_less (p ++ [i]) (q ++ [j]) = true.
  Proof.
    revert q. induction p as [|x p IH]; intros [|y q] Hl Hp; try discriminate. cbn [app index_less] in *.
    destruct (x =? y); [apply IH; auto | exact Hp].
  Qed.
  Lemma index_less_last p i j : i < j -> index_less (p ++ [i]) (p ++ [j]) = true.
  Proof.
    intros Hl. induction p as [|x p IH]; cbn [app index_less]; [|rewrite Nat.eqb_refl; exact IH].
    destruct (Nat.eqb_spec i j); [lia|]. apply Nat.ltb_lt, Hl.
  Qed.

  Definition entry_ok (bound : nat) (e : entry) : Prop :=
    exists n p sq, (n < bound /\ first_path p (e_w e)) /\ dist (e_w e) n /\ path p sq (e_w e) /\ length p = n /\ entry_match p sq e /\
      (e_dup e = true <-> dup2 (e_w e) n).

  Definition complete (bound : nat) (evs : list entry) : Prop :=
    forall w n i v name tagged opts, n < bound -> dist w n -> recd w i v name tagged opts ->
      exists e, In e evs /\ e_w e = w /\ e_i e = i /\ f_name (e_x e) = name /\ f_tag (e_x e) = tagged.

  (** b is before b', and an unshared b has an array of its own. *)
  Definition b_apart (b b' : bfield) : Prop :=
    index_less (b_index b) (b_index b') = true /\ (steady (b_index b) -> sl_arr (b_seq b) <> sl_arr (b_seq b')).

  Record inv (n : nat) (seen : list typ) (st : sstate) : Prop := {
    i_seen : forall u, In u seen <-> exists n', n' < n /\ reach n' u;
    i_next : forall b, In b (s_next st) -> bgood (s_heap st) b /\ length (b_index b) = n;
    i_nodup : NoDup (map b_typ (s_next st));
    i_order : ForallOrdPairs b_apart (s_next st);
    i_first : forall b, In b (s_next st) -> ~ In (b_typ b) seen -> first_path (b_index b) (b_typ b);
    i_cover : forall u, dist u n -> In u (map b_typ (s_next st));
    i_parent : forall u, In u (map b_typ (s_next st)) -> n = 0 \/ exists m, S m = n /\ exists w, dist w m;
    i_count : forall u, dist u n -> (1 < count u (s_ncnt st) <-> dup2 u n);
    i_evs : exists evs, s_flds st = flat_map dupl evs /\ NoDup (map e_key evs) /\ Forall (entry_ok n) evs /\ complete n evs
  }.

  (** State after the steps [done] of a level at depth n, from heap h0 and fields flds0. *)
  Definition tgt (s : step) : list typ := match classify H (p_d s) (p_u s) with FEmbed => [strip_ptr (p_u s)] | _ => [] end.
  Definition rkeys (s : step) : list (typ * nat) := match classify H (p_d s) (p_u s) with FRecord _ _ _ => [(b_typ (p_f s), p_i s)] | _ => [] end.

  Definition p_path (s : step) : list nat := b_index (p_f s) ++ [p_i s].

  Definition step_entry (s : step) (e : entry) : Prop :=
    e_w e = b_typ (p_f s) /\ e_i e = p_i s /\ e_dup e = p_dup s /\
    forall sq, path (b_index (p_f s)) sq (b_typ (p_f s)) -> entry_match (b_index (p_f s)) sq e.

  Record linv (n : nat) (h0 : heap) (flds0 : list field) (done : list step) (st : sstate) : Prop := {
    l_heap : stable n h0 (s_heap st);
    l_ncnt : s_ncnt st = flat_map tgt done;
    l_next : forall b, In b (s_next st) -> bgood (s_heap st) b /\
       exists s, In s done /\ b_index b = b_index (p_f s) ++ [p_i s] /\
         (cap_of n <> n -> sl_arr (b_seq b) = sl_arr (b_seq (p_f s)));
    l_nodup : NoDup (map b_typ (s_next st));
    l_order : ForallOrdPairs b_apart (s_next st);
    l_first : forall b s, In b (s_next st) -> In s done -> tgt s = [b_typ b] -> p_path s = b_index b \/ index_less (b_index b) (p_path s) = true;
    l_types : forall u, In u (map b_typ (s_next st)) <-> In u (s_ncnt st);
    l_evs : exists evs, s_flds st = flds0 ++ flat_map dupl evs /\ map e_key evs = flat_map rkeys done /\
       Forall (fun e => exists s, In s done /\ step_entry s e) evs
  }.

  (** A step reads an actual field of a good entry of the level. *)
  Definition step_good (n : nat) (h : heap) (s : step) : Prop :=
    bgood h (p_f s) /\ length (b_index (p_f s)) = n /\ nth_error (fields_of H (b_typ (p_f s))) (p_i s) = Some (p_d s, p_u s).

  (** A later step does not append to the array an unshared step appended to. *)
  Definition step_apart (n : nat) (s s' : step) : Prop :=
    index_less (p_path s) (p_path s') = true /\
    (steady (b_index (p_f s) ++ [p_i s]) -> cap_of n <> n -> classify H (p_d s') (p_u s') = FEmbed ->
     sl_arr (b_seq (p_f s)) <> sl_arr (b_seq (p_f s'))).

  Lemma steady_init p i : steady (p ++ [i]) -> steady p.
  Proof.
    intros Hs. inversion Hs as [Hq|q sq w j Hp Hq Hr He]; subst; [destruct p; discriminate|]. apply app_inj_tail in He. destruct He as (-> & _). exact Hq.
  Qed.

  Lemma steady_last p i sq w : steady (p ++ [i]) -> path p sq w -> cap_of (length p) <> length p ->
    forall j d v, i < j -> nth_error (fields_of H w) j = Some (d, v) -> classify H d v <> FEmbed.
  Proof.
    intros Hs Hp Hc j d v Hj Hn He. inversion Hs as [Hq|q sq' w' k Hp' Hq Hr Heq]; subst; [destruct p; discriminate|]. apply app_inj_tail in Heq. destruct Heq as (-> & ->).
    destruct (path_det _ _ _ Hp _ _ Hp') as (<- & <-). destruct Hr as [Hr|Hr]; [apply Hc, cap_of_roomless, Hr|].
    apply (Hr j (is_ptr H v) (strip_ptr v) Hj). apply edge_iff; [eapply path_ok; eauto|]. exists d, v. auto.
  Qed.

  Lemma count_app u a b : count u (a ++ b) = count u a + count u b.
  Proof. unfold count. rewrite filter_app, app_length. reflexivity. Qed.
  Lemma count_In u l : In u l <-> 0 < count u l.
  Proof.
    unfold count. split.
    - intros Hu. apply in_split in Hu. destruct Hu as (a & b & ->). rewrite filter_app. cbn [filter]. rewrite typ_eqb_refl, app_length. cbn. lia.
    - intros Hu. destruct (filter (typ_eqb u) l) as [|x r] eqn:Ef; [cbn in Hu; lia|].
      assert (In x (filter (typ_eqb u) l)) as Hx by (rewrite Ef; left; reflexivity). apply filter_In in Hx. destruct Hx as (Hx & He).
      apply typ_eqb_eq in He. congruence.
  Qed.
  Lemma count_one u : count u [u] = 1.
  Proof. unfold count. cbn. rewrite typ_eqb_refl. reflexivity. Qed.

  Lemma FOP_snoc {A} (R : A -> A -> Prop) l x : ForallOrdPairs R l -> Forall (fun y => R y x) l -> ForallOrdPairs R (l ++ [x]).
  Proof.
    induction 1 as [|y l Hy Hl IH]; intros Hx; cbn [app]; [repeat constructor|]. inversion Hx; subst. constructor; [|apply IH; assumption].
    apply Forall_app. split; [assumption|]. constructor; [assumption | constructor].
  Qed.

  Lemma linv_step n h0 flds0 done st s : linv n h0 flds0 done st -> step_good n h0 s -> Forall (fun s0 => step_apart n s0 s) done ->
    linv n h0 flds0 (done ++ [s]) (do_step st s).
  Proof.
    intros [Hh Hc Hn Hd Hod Hfp Ht (evs & He1 & He2 & He3)] (Hg & Hlen & Hnth) Hap.
    assert (Hg' : bgood (s_heap st) (p_f s)) by (eapply bgood_stable; eauto).
    assert (Hext : Forall (fun e => exists s0, In s0 (done ++ [s]) /\ step_entry s0 e) evs).
    { eapply Forall_impl; [|exact He3]. intros e (s0 & A & B). exists s0. split; auto. apply in_or_app. auto. }
    assert (Hnx : forall b, In b (s_next st) -> exists s0, In s0 (done ++ [s]) /\ b_index b = b_index (p_f s0) ++ [p_i s0] /\
      (cap_of n <> n -> sl_arr (b_seq b) = sl_arr (b_seq (p_f s0)))).
    { intros b Hb. destruct (Hn b Hb) as (_ & s0 & A & B). exists s0. split; auto. apply in_or_app. auto. }
    assert (Hfs : forall b s0, In b (s_next st) -> In s0 (done ++ [s]) -> tgt s0 = [b_typ b] -> p_path s0 = b_index b \/ index_less (b_index b) (p_path s0) = true).
    { intros b s0 Hb Hs0 Ht0. apply in_app_or in Hs0. destruct Hs0 as [Hs0|[<-|[]]]; [apply Hfp; assumption|]. right.
      destruct (Hn b Hb) as (_ & s1 & Hs1 & Hi1 & _). rewrite Forall_forall in Hap. rewrite Hi1. apply (Hap s1 Hs1). }
    assert (Ts : tgt s = match classify H (p_d s) (p_u s) with FEmbed => [strip_ptr (p_u s)] | _ => [] end) by reflexivity.
    assert (Rs : rkeys s = match classify H (p_d s) (p_u s) with FRecord _ _ _ => [(b_typ (p_f s), p_i s)] | _ => [] end) by reflexivity.
    unfold do_step, scan1. destruct (classify H (p_d s) (p_u s)) as [|name tagged opts|] eqn:Ec.
    - split; auto.
      + rewrite flat_map_app. cbn [flat_map]. rewrite Ts, !app_nil_r. exact Hc.
      + intros b Hb. split; [apply Hn, Hb | apply Hnx, Hb].
      + exists evs. rewrite flat_map_app. cbn [flat_map]. rewrite Rs, !app_nil_r. auto.
    - split; cbn [s_heap s_ncnt s_next s_flds]; auto.
      + rewrite flat_map_app. cbn [flat_map]. rewrite Ts, !app_nil_r. exact Hc.
      + intros b Hb. split; [apply Hn, Hb | apply Hnx, Hb].
      + set (x := mkField _ _ _ _ _ _ _).
        exists (evs ++ [mkEntry (b_typ (p_f s)) (p_i s) x (p_dup s)]). split; [|split].
        * rewrite flat_map_app, He1, <- app_assoc. f_equal. f_equal. cbn [flat_map]. rewrite app_nil_r. reflexivity.
        * rewrite map_app, flat_map_app, He2. cbn [flat_map map]. rewrite Rs. reflexivity.
        * apply Forall_app. split; [exact Hext|]. constructor; [|constructor]. exists s. split; [apply in_or_app; right; left; reflexivity|].
          split; [reflexivity|]. split; [reflexivity|]. split; [reflexivity|]. intros sq Hp.
          exists (p_u s), opts. cbn [e_w e_i e_x e_dup f_name f_tag f_index f_quoted f_omitEmpty f_omitNil f_seq x].
          split; [exists (p_d s); auto|]. split; [reflexivity|]. split; [reflexivity|]. split; [reflexivity|]. split; [reflexivity|].
          intros Hl. destruct Hg' as (sq' & A & B & _). destruct (path_det _ _ _ Hp _ _ A) as (-> & _). rewrite (B Hl). reflexivity.
    - set (u := strip_ptr (p_u s)) in *. cbn zeta. rewrite count_app, count_one.
      assert (Htg : flat_map tgt (done ++ [s]) = s_ncnt st ++ [u]).
      { rewrite flat_map_app, <- Hc. cbn [flat_map]. rewrite Ts, app_nil_r. reflexivity. }
      assert (Hrk : flat_map rkeys (done ++ [s]) = flat_map rkeys done).
      { rewrite flat_map_app. cbn [flat_map]. rewrite Rs, !app_nil_r. reflexivity. }
      destruct (Nat.eqb_spec (count u (s_ncnt st) + 1) 1) as [Z|Z].
      + destruct (sl_append (s_heap st) (b_seq (p_f s)) _) as [h' s'] eqn:Ea.
        destruct Hg' as (sq & P1 & P2 & P3 & P4 & P5). rewrite P3, Hlen in P5.
        destruct (append_good n _ _ _ _ _ Ea ltac:(lia) P4 P5) as (A1 & A2 & A3 & A4 & A6 & A7 & A8 & A9).
        assert (Hnew : bgood h' (mkB u (b_index (p_f s) ++ [p_i s]) s')).
        { assert (He : edge (b_typ (p_f s)) (p_i s) (is_ptr H (p_u s)) u) by (exists (p_d s), (p_u s); auto).
          exists (sq ++ [(h_off H (fields_of H (b_typ (p_f s))) (p_i s), is_ptr H (p_u s))]). cbn [b_index b_typ b_seq].
          split; [eapply path_snoc; eauto|]. rewrite app_length. cbn [length].
          split; [intros Hs; rewrite A6, P2 by (eapply steady_init; eauto); reflexivity|]. split; [lia|]. split; [exact A3|]. rewrite A2. exact A4. }
        assert (Hap' : forall b, In b (s_next st) -> steady (b_index b) -> cap_of n <> n -> sl_arr (b_seq b) <> sl_arr (b_seq (p_f s))).
        { intros b Hb Hs Hne. destruct (Hn b Hb) as (_ & s0 & B1 & B2 & B3). rewrite (B3 Hne). rewrite Forall_forall in Hap. apply (proj2 (Hap s0 B1)); auto. rewrite <- B2. exact Hs. }
        assert (Hold : forall b, In b (s_next st) -> bgood h' b).
        { intros b Hb. destruct (Hn b Hb) as ((sq0 & B1 & B2 & B3 & B4 & B5) & _). destruct A1 as (L & S1). destruct (S1 _ B4) as (E1 & _).
          exists sq0. split; [exact B1|]. split; [|split; [exact B3|]; split; [lia | congruence]].
          intros Hs. rewrite <- (B2 Hs). unfold sl_read. rewrite (A9 _ B4 (Hap' b Hb Hs)). reflexivity. }
        assert (Hnin : ~ In u (s_ncnt st)) by (intros C; apply count_In in C; lia).
        split; cbn [s_heap s_ncnt s_next s_flds].
        * eapply stable_trans; eauto.
        * symmetry. exact Htg.
        * intros b Hb. apply in_app_or in Hb. destruct Hb as [Hb|[<-|[]]].
          -- split; [apply Hold, Hb | apply Hnx, Hb].
          -- split; [exact Hnew|]. exists s. split; [apply in_or_app; right; left; reflexivity|]. cbn [b_index b_seq]. auto.
        * rewrite map_app. cbn [map]. apply Permutation_NoDup with (l := u :: map b_typ (s_next st)); [apply Permutation_cons_append|].
          constructor; auto. rewrite Ht. exact Hnin.
        * apply FOP_snoc; [exact Hod|]. apply Forall_forall. intros b Hb. split.
          { destruct (Hn b Hb) as (_ & s1 & Hs1 & Hi1 & _). rewrite Forall_forall in Hap. rewrite Hi1. apply (Hap s1 Hs1). }
          intros Hs. cbn [b_seq].
          destruct (Nat.eq_dec (cap_of n) n) as [Q|Q]; [|rewrite (A8 Q); apply Hap'; assumption].
          rewrite (A7 Q). destruct (Hn b Hb) as ((sq0 & _ & _ & _ & B4 & _) & _). lia.
        * intros b s0 Hb Hs0 Ht0. apply in_app_or in Hb. destruct Hb as [Hb|[<-|[]]]; [apply Hfs; assumption|].
          apply in_app_or in Hs0. destruct Hs0 as [Hs0|[<-|[]]]; [|left; reflexivity]. exfalso. apply Hnin. rewrite Hc. apply in_flat_map.
          exists s0. split; [exact Hs0|]. cbn [b_typ] in Ht0. rewrite Ht0. left. reflexivity.
        * intros v. rewrite map_app, !in_app_iff, Ht. reflexivity.
        * exists evs. rewrite Hrk. auto.
      + split; cbn [s_heap s_ncnt s_next s_flds]; auto.
        * intros b Hb. split; [apply Hn, Hb | apply Hnx, Hb].
        * intros v. rewrite in_app_iff, Ht. cbn [In]. split; auto. intros [C|[<-|[]]]; auto. apply count_In. lia.
        * exists evs. rewrite Hrk. auto.
  Qed.

  Lemma linv_steps n h0 flds0 steps : Forall (step_good n h0) steps -> ForallOrdPairs (step_apart n) steps ->
    linv n h0 flds0 steps (fold_left do_step steps (mkS flds0 [] [] h0)).
  Proof.
    intros Hf Ho. assert (G : forall l2 l1 st, Forall (step_good n h0) l2 -> ForallOrdPairs (step_apart n) l2 ->
      (forall s0 s, In s0 l1 -> In s l2 -> step_apart n s0 s) -> linv n h0 flds0 l1 st -> linv n h0 flds0 (l1 ++ l2) (fold_left do_step l2 st)).
    { induction l2 as [|s l2 IH]; intros l1 st Hl Hq Hx Hi; cbn [fold_left]; [rewrite app_nil_r; exact Hi|].
      inversion Hl; subst. inversion Hq as [|? ? Hs Hq']; subst. replace (l1 ++ s :: l2) with ((l1 ++ [s]) ++ l2) by (rewrite <- app_assoc; reflexivity).
      apply IH; auto.
      - intros s0 s1 H0 H1. apply in_app_or in H0. destruct H0 as [H0|[<-|[]]]; [apply Hx; [exact H0 | right; exact H1]|]. rewrite Forall_forall in Hs. apply Hs, H1.
      - apply linv_step; auto. apply Forall_forall. intros s0 H0. apply Hx; [exact H0 | left; reflexivity]. }
    apply (G steps [] _ Hf Ho); [intros s0 s []|]. split; cbn; auto using stable_refl; try (intros ? []).
    - constructor.
    - constructor.
    - tauto.
    - exists []. cbn. rewrite app_nil_r. auto.
  Qed.

  Lemma level_steps_In ccnt seen curr s : In s (level_steps ccnt seen curr) <->
    exists f i d u, In f curr /\ ~ In (b_typ f) seen /\ nth_error (fields_of H (b_typ f)) i = Some (d, u) /\
      s = mkStep f (1 <? count (b_typ f) ccnt) i d u.
  Proof.
    unfold level_steps. rewrite in_flat_map. split.
    - intros (f & Hf & Hs). apply filter_In in Hf. destruct Hf as (Hf & Hn). apply steps_from_In in Hs.
      destruct Hs as (k & d & u & Hk & ->). exists f, k, d, u. repeat split; auto. intros C. apply existsb_typ in C. rewrite C in Hn. discriminate.
    - intros (f & i & d & u & Hf & Hn & Hk & ->). exists f. split.
      + apply filter_In. split; auto. apply negb_true_iff. apply not_true_is_false. intros C. apply existsb_typ in C. contradiction.
      + apply steps_from_In. exists i, d, u. auto.
  Qed.

  Lemma NoDup_flat_map_keys {A K} (g : A -> list K) l : NoDup l -> (forall a, In a l -> NoDup (g a)) ->
    (forall a b k, In a l -> In b l -> In k (g a) -> In k (g b) -> a = b) -> NoDup (flat_map g l).
  Proof.
    induction l as [|a l IH]; intros Hd Hg Hk; cbn [flat_map]; [constructor|]. inversion Hd as [|? ? Hna Hd']; subst.
    assert (Hl : NoDup (flat_map g l)) by (apply IH; auto; [intros; apply Hg; right; auto | intros; eapply Hk; eauto; right; auto]).
    assert (Ha : NoDup (g a)) by (apply Hg; left; auto).
    assert (Hx : forall k, In k (g a) -> ~ In k (flat_map g l)).
    { intros k H1 H2. apply in_flat_map in H2. destruct H2 as (b & Hb & H2). assert (a = b) by (eapply Hk; eauto; [left; auto | right; auto]). congruence. }
    clear Hk Hg. induction (g a) as [|k r IHr]; cbn [app]; auto. inversion Ha; subst. constructor.
    - intros C. apply in_app_or in C. destruct C as [C|C]; [contradiction | eapply Hx; [left; reflexivity | exact C]].
    - apply IHr; auto. intros. apply Hx. right. assumption.
  Qed.

  Lemma steps_from_NoDup f dup fs i : NoDup (steps_from f dup i fs).
  Proof.
    revert i. induction fs as [|[d u] fs IH]; intros i; cbn [steps_from]; constructor; auto.
    rewrite steps_from_In. intros (k & d' & u' & _ & C). injection C as C _ _. lia.
  Qed.

  Lemma level_steps_NoDup ccnt seen curr : NoDup (map b_typ curr) -> NoDup (level_steps ccnt seen curr).
  Proof.
    intros Hn. apply NoDup_flat_map_keys.
    - apply NoDup_filter. eapply NoDup_map_inv. exact Hn.
    - intros a _. apply steps_from_NoDup.
    - intros a b k _ _ Ha Hb. apply steps_from_In in Ha. apply steps_from_In in Hb.
      destruct Ha as (? & ? & ? & _ & ->). destruct Hb as (? & ? & ? & _ & Eq). injection Eq. auto.
  Qed.

  Lemma b_typ_inj curr f g : NoDup (map b_typ curr) -> In f curr -> In g curr -> b_typ f = b_typ g -> f = g.
  Proof.
    induction curr as [|c curr IH]; intros Hn Hf Hg He; [destruct Hf|]. cbn [map] in Hn. inversion Hn as [|? ? Hni Hn']; subst.
    destruct Hf as [->|Hf], Hg as [->|Hg]; auto.
    - exfalso. apply Hni. rewrite He. apply in_map. exact Hg.
    - exfalso. apply Hni. rewrite <- He. apply in_map. exact Hf.
  Qed.

  Lemma step_key_inj ccnt seen curr s s' : NoDup (map b_typ curr) -> In s (level_steps ccnt seen curr) -> In s' (level_steps ccnt seen curr) ->
    b_typ (p_f s) = b_typ (p_f s') -> p_i s = p_i s' -> s = s'.
  Proof.
    intros Hn Hs Hs' He Hi. apply level_steps_In in Hs. apply level_steps_In in Hs'.
    destruct Hs as (f & i & d & u & Hf & _ & Hk & ->). destruct Hs' as (f' & i' & d' & u' & Hf' & _ & Hk' & ->). cbn [p_f p_i] in *.
    assert (f = f') by (eapply b_typ_inj; eauto). subst. f_equal; congruence.
  Qed.

  (** count u (flat_map tgt l) >= 2 exactly when two distinct steps target u. *)
  Lemma count_tgt_two u l : NoDup l -> (1 < count u (flat_map tgt l) <->
    exists s s', In s l /\ In s' l /\ s <> s' /\ tgt s = [u] /\ tgt s' = [u]).
  Proof.
    assert (T : forall s, (tgt s = [u] /\ count u (tgt s) = 1) \/ (tgt s <> [u] /\ count u (tgt s) = 0)).
    { intros s. unfold tgt. destruct (classify H (p_d s) (p_u s)); try (right; split; [discriminate | reflexivity]).
      destruct (typ_eq_dec (strip_ptr (p_u s)) u) as [->|Ne]; [left; split; [reflexivity | apply count_one]|].
      right. split; [congruence|]. unfold count. cbn [filter]. replace (typ_eqb u (strip_ptr (p_u s))) with false; [reflexivity|].
      symmetry. apply typ_eqb_neq. congruence. }
    assert (One : forall l, 0 < count u (flat_map tgt l) <-> exists s, In s l /\ tgt s = [u]).
    { intros l0. rewrite <- count_In, in_flat_map. split.
      - intros (s & Hs & Hu). exists s. split; auto. destruct (T s) as [(A & _)|(_ & A)]; auto. apply count_In in Hu. lia.
      - intros (s & Hs & Hu). exists s. split; auto. rewrite Hu. left. reflexivity. }
    induction l as [|s l IH]; intros Hn; cbn [flat_map].
    - cbn. split; [lia | intros (? & ? & [] & _)].
    - inversion Hn as [|? ? Hni Hn']; subst. rewrite count_app. destruct (T s) as [(Ts & C)|(Ts & C)]; rewrite C.
      + assert (1 < 1 + count u (flat_map tgt l) <-> 0 < count u (flat_map tgt l)) as -> by lia. rewrite One. split.
        * intros (s' & Hs' & Ht'). exists s, s'. repeat split; auto; [left; auto | right; auto | congruence].
        * intros (a & b & [<-|Ha] & [<-|Hb] & Hab & Hta & Htb); [congruence | exists b; auto | exists a; auto | exists a; auto].
      + cbn [plus]. rewrite IH by assumption. split.
        * intros (a & b & Ha & Hb & R). exists a, b. repeat split; try (right; assumption); apply R.
        * intros (a & b & [<-|Ha] & [<-|Hb] & Hab & Hta & Htb); try congruence. exists a, b. auto.
  Qed.

  Lemma FOP_app {A} (R : A -> A -> Prop) l1 l2 : ForallOrdPairs R l1 -> ForallOrdPairs R l2 -> (forall x y, In x l1 -> In y l2 -> R x y) -> ForallOrdPairs R (l1 ++ l2).
  Proof.
    induction 1 as [|x l1 Hx Hl IH]; intros H2 Hc; cbn [app]; [exact H2|]. constructor.
    - apply Forall_app. split; [exact Hx|]. apply Forall_forall. intros y Hy. apply Hc; [left; reflexivity | exact Hy].
    - apply IH; auto. intros a b Ha. apply Hc. right. exact Ha.
  Qed.

  Lemma level_apart n h ccnt seen curr : (forall b, In b curr -> bgood h b /\ length (b_index b) = n) ->
    ForallOrdPairs b_apart curr ->
    ForallOrdPairs (step_apart n) (level_steps ccnt seen curr).
  Proof.
    intros Hg Ho. unfold level_steps. induction Ho as [|f curr Hf Ho IH]; [constructor|]. cbn [fresh filter].
    assert (Hg' : forall b, In b curr -> bgood h b /\ length (b_index b) = n) by (intros; apply Hg; right; assumption).
    destruct (negb (existsb (typ_eqb (b_typ f)) seen)); [|apply IH, Hg']. cbn [flat_map]. apply FOP_app; [|apply IH, Hg'|].
    - destruct (Hg f (or_introl eq_refl)) as ((sq & Hp & _) & Hlen). unfold steps_of.
      assert (G : forall fs k, (forall j d v, nth_error fs j = Some (d, v) -> nth_error (fields_of H (b_typ f)) (k + j) = Some (d, v)) ->
        ForallOrdPairs (step_apart n) (steps_from f (1 <? count (b_typ f) ccnt) k fs)).
      { induction fs as [|[d u] fs IHf]; intros k Hk; cbn [steps_from]; [constructor|]. constructor.
        - apply Forall_forall. intros s Hs. apply steps_from_In in Hs. destruct Hs as (j & d' & u' & Hj & ->). split; [apply index_less_last; cbn [p_i]; lia|].
          intros Hst Hne Hc. cbn [p_f p_i p_d p_u] in *. exfalso. eapply (steady_last (b_index f) k sq (b_typ f) Hst Hp); [rewrite Hlen; exact Hne | | | exact Hc]; [|apply (Hk (S j)); exact Hj]. lia.
        - apply IHf. intros j d' v Hj. replace (S k + j) with (k + S j) by lia. apply Hk. exact Hj. }
      apply G. intros j d v Hj. exact Hj.
    - intros s s' Hs Hs'. apply steps_from_In in Hs. destruct Hs as (j & d & u & _ & ->). apply in_flat_map in Hs'. destruct Hs' as (f' & Hf' & Hs').
      apply filter_In in Hf'. destruct Hf' as (Hf' & _). apply steps_from_In in Hs'. destruct Hs' as (j' & d' & u' & _ & ->).
      rewrite Forall_forall in Hf. split.
      + apply index_less_snoc; [cbn [p_f]|apply Hf, Hf']. rewrite (proj2 (Hg f (or_introl eq_refl))), (proj2 (Hg f' (or_intror Hf'))). reflexivity.
      + intros Hst _ _. cbn [p_f p_i] in *. apply (proj2 (Hf f' Hf')). eapply steady_init; eauto.
  Qed.

  (** ** From one level to the next *)
  Lemma inv_level n seen st : inv n seen st ->
    let '(seen', st') := level H (s_ncnt st) (s_next st) seen (mkS (s_flds st) [] [] (s_heap st)) in inv (S n) seen' st'.
  Proof.
    intros [Is Inx Ind Iod Ifp Icov Ipar Icnt (evs & Ev1 & Ev2 & Ev3 & Ev4)].
    rewrite (level_eq _ _ Ind). set (steps := level_steps (s_ncnt st) seen (s_next st)).
    assert (Hsteps : Forall (step_good n (s_heap st)) steps).
    { apply Forall_forall. intros s Hs. apply level_steps_In in Hs. destruct Hs as (f & i & d & u & Hf & _ & Hk & ->).
      split; cbn [p_f p_i p_d p_u]; [apply Inx, Hf |]. split; [apply Inx, Hf | exact Hk]. }
    assert (Hpairs : ForallOrdPairs (step_apart n) steps) by (eapply level_apart; eauto).
    pose proof (linv_steps n (s_heap st) (s_flds st) steps Hsteps Hpairs) as Hl.
    set (st' := fold_left do_step steps _) in *. destruct Hl as [Lh Lc Ln Ld Lod Lfp Lt (evs' & Le1 & Le2 & Le3)].
    (* types at distance n are the unseen types of next *)
    assert (Hdist : forall f, In f (s_next st) -> ~ In (b_typ f) seen -> dist (b_typ f) n).
    { intros f Hf Hns. destruct (Inx f Hf) as ((sq & Hp & _) & Hlen). split; [exists (b_index f), sq; auto|].
      intros n' Hn' C. apply Hns. apply Is. eauto. }
    assert (Hdist' : forall w, dist w n -> exists f, In f (s_next st) /\ b_typ f = w /\ ~ In (b_typ f) seen).
    { intros w Hw. pose proof (Icov w Hw) as Hin. apply in_map_iff in Hin. destruct Hin as (f & Ef & Hf). exists f. split; [assumption|]. split; [assumption|].
      intros C. apply Is in C. destruct C as (n' & Hn' & Hr). rewrite Ef in Hr. destruct Hw as (_ & Hm). eapply Hm; eauto. }
    (* the edges of the level are the steps *)
    assert (Hedge : forall w i b u, dist w n -> edge w i b u -> exists s, In s steps /\ b_typ (p_f s) = w /\ p_i s = i /\ tgt s = [u]).
    { intros w i b u Hw (d & v & Hk & Hc & -> & ->). destruct (Hdist' w Hw) as (f & Hf & <- & Hns).
      exists (mkStep f (1 <? count (b_typ f) (s_ncnt st)) i d v). split; [apply level_steps_In; exists f, i, d, v; auto|].
      cbn. unfold tgt. cbn. rewrite Hc. auto. }
    assert (Hstep : forall s u, In s steps -> tgt s = [u] -> dist (b_typ (p_f s)) n /\ exists b, edge (b_typ (p_f s)) (p_i s) b u).
    { intros s u Hs Ht. apply level_steps_In in Hs. destruct Hs as (f & i & d & v & Hf & Hns & Hk & ->). cbn [p_f p_i].
      split; [apply Hdist; auto|]. unfold tgt in Ht. cbn [p_d p_u] in Ht. destruct (classify H d v) eqn:Ec; try discriminate.
      injection Ht as <-. exists (is_ptr H v), d, v. auto. }
    assert (Hsn : NoDup steps) by (apply level_steps_NoDup; exact Ind).
    split.
    - intros u. rewrite in_app_iff, <- in_rev, in_map_iff, Is. split.
      + intros [(f & <- & Hf) | (n' & Hn' & Hr)]; [|exists n'; auto].
        apply filter_In in Hf. destruct Hf as (Hf & _). destruct (Inx f Hf) as ((sq & Hp & _) & Hlen). exists n. split; auto. exists (b_index f), sq. auto.
      + intros (n' & Hn' & Hr). destruct (Nat.eq_dec n' n) as [->|Ne]; [|right; exists n'; split; auto; lia].
        destruct (existsb (typ_eqb u) seen) eqn:Es; [right; apply Is, existsb_typ; exact Es|]. left.
        assert (Hu : dist u n).
        { split; auto. intros m Hm C. assert (In u seen) as Hin by (apply Is; eauto). apply existsb_typ in Hin. congruence. }
        destruct (Hdist' u Hu) as (f & Hf & Ef & Hns). exists f. split; auto. apply filter_In. split; auto.
        apply negb_true_iff, not_true_is_false. intros C. apply existsb_typ in C. contradiction.
    - intros b Hb. destruct (Ln b Hb) as (Hg & s & Hs & Hlen & _). split; auto. rewrite Hlen, app_length. cbn [length]. rewrite Nat.add_1_r. f_equal.
      apply level_steps_In in Hs. destruct Hs as (f & i & d & u & Hf & _ & _ & ->). cbn [p_f]. apply Inx, Hf.
    - exact Ld.
    - exact Lod.
    - intros b Hb Hns q sq Hq Lq. destruct (Ln b Hb) as (Hg & s & Hs & Hlen & _).
      assert (Lb : length (b_index b) = S n).
      { rewrite Hlen, app_length. cbn [length]. rewrite Nat.add_1_r. f_equal. apply level_steps_In in Hs. destruct Hs as (f & i & d & u & Hf & _ & _ & ->). cbn [p_f]. apply Inx, Hf. }
      rewrite Lb in Lq.
      destruct (exists_last (l := q)) as (q' & i & ->); [destruct q; discriminate|]. rewrite app_length in Lq. cbn [length] in Lq.
      destruct (path_snoc_inv _ _ _ _ Hq) as (sq' & w & b' & Hq' & He & _).
      assert (Rn : forall m, m < S n -> ~ reach m (b_typ b)).
      { intros m Hm C. apply Hns. apply in_or_app. destruct (reach_dist _ _ C) as (k & Hk & Hd). destruct (Nat.eq_dec k n) as [->|Nk].
        - left. destruct (Hdist' _ Hd) as (f & Hf & Ef & Hn). apply -> in_rev. rewrite <- Ef. apply in_map. apply filter_In. split; [exact Hf|].
          apply negb_true_iff, not_true_is_false. intros X. apply existsb_typ in X. contradiction.
        - right. apply Is. exists k. split; [lia | apply Hd]. }
      assert (Dw : dist w n).
      { split; [exists q', sq'; split; [exact Hq' | lia]|]. intros m Hm C. apply (Rn (S m)); [lia|]. eapply reach_step; eauto. }
      destruct (Hedge _ _ _ _ Dw He) as (s' & Hs' & A1 & A2 & A3).
      assert (Lf : length (b_index (p_f s')) = n /\ first_path (b_index (p_f s')) w).
      { apply level_steps_In in Hs'. destruct Hs' as (f & i' & d & u & Hf & Hnf & _ & ->). cbn [p_f] in *. split; [apply Inx, Hf|]. rewrite <- A1. apply Ifp; assumption. }
      destruct Lf as (Lf & Hfst).
      assert (Hmid : q' ++ [i] = p_path s' \/ index_less (p_path s') (q' ++ [i]) = true).
      { unfold p_path. rewrite A2. destruct (Hfst q' sq' Hq' ltac:(lia)) as [->|C]; [left; reflexivity|]. right. apply index_less_snoc; [lia | exact C]. }
      destruct (Lfp b s' Hb Hs' A3) as [C|C], Hmid as [D|D]; rewrite ?D, ?C in *; auto. right. eapply index_less_trans; eauto.
    - intros u Hu. apply Lt. rewrite Lc. apply in_flat_map. destruct (dist_step_inv _ _ Hu) as (w & i & b & Hw & He).
      destruct (Hedge _ _ _ _ Hw He) as (s & Hs & _ & _ & Ht). exists s. split; auto. rewrite Ht. left. reflexivity.
    - intros u Hu. right. exists n. split; auto. apply Lt in Hu. rewrite Lc in Hu. apply in_flat_map in Hu. destruct Hu as (s & Hs & Ht).
      exists (b_typ (p_f s)). unfold tgt in Ht. apply (Hstep s u Hs). unfold tgt. destruct (classify H (p_d s) (p_u s)); try destruct Ht as [].
      + congruence.
      + contradiction.
    - intros u Hu. rewrite Lc, (count_tgt_two u steps Hsn). split.
      + intros (s & s' & Hs & Hs' & Hne & Ht & Ht'). destruct (Hstep s u Hs Ht) as (D1 & b1 & E1). destruct (Hstep s' u Hs' Ht') as (D2 & b2 & E2).
        exists n, (b_typ (p_f s)), (p_i s), b1, (b_typ (p_f s')), (p_i s'), b2. do 5 (split; [first [assumption | reflexivity]|]).
        intros C. injection C as C1 C2. apply Hne. apply (step_key_inj (s_ncnt st) seen (s_next st)); auto.
      + intros (m & w & i & b & w' & i' & b' & Em & D1 & D2 & E1 & E2 & Hne). assert (m = n) by lia. subst m.
        destruct (Hedge _ _ _ _ D1 E1) as (s & Hs & A1 & A2 & A3). destruct (Hedge _ _ _ _ D2 E2) as (s' & Hs' & B1 & B2 & B3).
        exists s, s'. repeat split; auto. intros <-. apply Hne. congruence.
    - exists (evs ++ evs'). split; [rewrite Le1, Ev1, flat_map_app; reflexivity|]. split; [|split].
      + rewrite map_app, Le2.
        assert (Hk1 : NoDup (flat_map rkeys steps)).
        { apply NoDup_flat_map_keys; auto.
          - intros s _. unfold rkeys. destruct (classify H (p_d s) (p_u s)); repeat constructor. intros [].
          - intros s s' k Hs Hs' Hk Hk'. unfold rkeys in *. destruct (classify H (p_d s) (p_u s)), (classify H (p_d s') (p_u s')); try contradiction.
            destruct Hk as [<-|[]], Hk' as [Eq|[]]. injection Eq as C1 C2. apply (step_key_inj (s_ncnt st) seen (s_next st)); auto. }
        assert (Hdis : forall k, In k (map e_key evs) -> ~ In k (flat_map rkeys steps)).
        { intros k Hk C. apply in_map_iff in Hk. destruct Hk as (e & <- & He). rewrite Forall_forall in Ev3.
          destruct (Ev3 e He) as (n1 & p1 & sq1 & (Hn1 & _) & D1 & _). apply in_flat_map in C. destruct C as (s & Hs & C).
          unfold rkeys in C. destruct (classify H (p_d s) (p_u s)); try contradiction. destruct C as [C|[]]. injection C as C1 C2.
          apply level_steps_In in Hs. destruct Hs as (f & i & d & u & Hf & Hns & Hk & ->). cbn [p_f] in C1.
          pose proof (Hdist f Hf Hns) as D2. rewrite C1 in D2. pose proof (dist_det _ _ _ D1 D2). lia. }
        clear - Ev2 Hk1 Hdis. induction (map e_key evs) as [|k r IH]; cbn [app]; auto. inversion Ev2; subst. constructor.
        * intros C. apply in_app_or in C. destruct C as [C|C]; [contradiction | eapply Hdis; [left; reflexivity | exact C]].
        * apply IH; auto. intros. apply Hdis. right. assumption.
      + apply Forall_app. split.
        * eapply Forall_impl; [|exact Ev3]. intros e (n1 & p1 & sq1 & (Hn1 & Hf1) & R). exists n1, p1, sq1. split; [split; [lia | exact Hf1] | exact R].
        * eapply Forall_impl; [|exact Le3]. intros e (s & Hs & Ew & Ei & Edp & Em).
          apply level_steps_In in Hs. destruct Hs as (f & i & d & u & Hf & Hns & Hk & ->). cbn [p_f p_i p_dup] in *.
          destruct (Inx f Hf) as ((sq & Hp & _) & Hlen). pose proof (Hdist f Hf Hns) as D. exists n, (b_index f), sq.
          rewrite Ew. split; [split; [lia | apply Ifp; assumption]|]. split; [exact D|]. split; [exact Hp|]. split; [exact Hlen|]. split; [apply Em, Hp|].
          rewrite Edp, <- (Icnt _ D). apply Nat.ltb_lt.
      + intros w m i v name tagged opts Hm Hw Hr. destruct (Nat.eq_dec m n) as [->|Ne].
        * destruct (Hdist' w Hw) as (f & Hf & Ef & Hns). destruct Hr as (d & Hk & Hc).
          assert (Hs : In (mkStep f (1 <? count (b_typ f) (s_ncnt st)) i d v) steps) by (apply level_steps_In; exists f, i, d, v; rewrite Ef; rewrite Ef in Hns; auto).
          assert (Hin : In (w, i) (map e_key evs')).
          { rewrite Le2. apply in_flat_map. eexists. split; [exact Hs|]. unfold rkeys. cbn [p_d p_u p_f p_i]. rewrite Hc, Ef. left. reflexivity. }
          apply in_map_iff in Hin. destruct Hin as (e & Ek & He). injection Ek as Ew Ei. exists e. split; [apply in_or_app; auto|].
          split; [assumption|]. split; [assumption|]. rewrite Forall_forall in Le3. destruct (Le3 e He) as (s & Hs' & Ew' & Ei' & _ & Em).
          apply level_steps_In in Hs'. destruct Hs' as (f' & i' & d' & u' & Hf' & _ & Hk' & ->). cbn [p_f p_i] in *.
          destruct (Inx f' Hf') as ((sq & Hp & _) & _). destruct (Em sq Hp) as (v' & opts' & (d2 & Hk2 & Hc2) & _).
          rewrite Ew, Ei in Hk2. rewrite Hk in Hk2. injection Hk2 as <- <-. rewrite Hc in Hc2. injection Hc2 as -> -> ->. auto.
        * destruct (Ev4 w m i v name tagged opts ltac:(lia) Hw Hr) as (e & He & R). exists e. split; [apply in_or_app; auto | exact R].
  Qed.

  Lemma inv_init : inv 0 [] (mkS [] [mkB t [] nil_slice] [] [[]]).
  Proof.
    split; cbn [s_next s_heap s_flds s_ncnt map In b_typ].
    - intros u. split; [intros [] | intros (n & Hn & _); lia].
    - intros b [<-|[]]. split; [|reflexivity]. exists []. cbn [b_index b_typ b_seq nil_slice sl_len sl_arr]. split; [constructor|].
      repeat split; cbn; auto; lia.
    - repeat constructor. intros [].
    - repeat constructor.
    - intros b [<-|[]] _ q sq _ Hq. cbn [b_index length] in *. destruct q; [left; reflexivity | discriminate].
    - intros u ((p & sq & Hp & Hl) & _). destruct p; [|discriminate]. left. inversion Hp; subst; auto.
      destruct p; discriminate.
    - intros u _. left. reflexivity.
    - intros u _. cbn. split; [lia|]. intros (m & w & i & b & w' & i' & b' & C & _). discriminate.
    - exists []. split; [reflexivity|]. split; [constructor|]. split; [constructor|]. intros w n i v name tagged opts Hn. lia.
  Qed.

  Lemma bfs_inv : forall fuel n seen st flds, inv n seen st -> bfs H fuel seen st = Some flds ->
    exists m, (forall u, ~ dist u m) /\
    exists evs, flds = flat_map dupl evs /\ NoDup (map e_key evs) /\ Forall (entry_ok m) evs /\ complete m evs.
  Proof.
    induction fuel as [|fuel IH]; intros n seen st flds Hi Hb; cbn [bfs] in Hb.
    - destruct (s_next st) eqn:En; [|discriminate]. injection Hb as <-. exists n. split; [|apply Hi].
      intros u Hu. apply (i_cover _ _ _ Hi) in Hu. rewrite En in Hu. exact Hu.
    - destruct (s_next st) as [|b l] eqn:En.
      + injection Hb as <-. exists n. split; [|apply Hi]. intros u Hu. apply (i_cover _ _ _ Hi) in Hu. rewrite En in Hu. exact Hu.
      + pose proof (inv_level n seen st Hi) as Hl. rewrite En in Hl. destruct (level H (s_ncnt st) (b :: l) seen _) as [seen' st']. eapply IH; eauto.
  Qed.

  Lemma bfs_fuel : forall fuel n seen st, inv n seen st -> bfs H fuel seen st = None -> (n = 0 -> 0 < fuel) ->
    exists u m, m + 1 = n + fuel /\ dist u m.
  Proof.
    induction fuel as [|fuel IH]; intros n seen st Hi Hb Hz; cbn [bfs] in Hb.
    - destruct (s_next st) as [|b l] eqn:En; [discriminate|]. destruct (i_parent _ _ _ Hi (b_typ b)) as [->|(m & Em & w & Hw)].
      + rewrite En. left. reflexivity.
      + lia.
      + exists w, m. split; [lia | exact Hw].
    - destruct (s_next st) as [|b l] eqn:En; [discriminate|]. pose proof (inv_level n seen st Hi) as Hl. rewrite En in Hl.
      destruct (level H (s_ncnt st) (b :: l) seen _) as [seen' st']. destruct (IH (S n) seen' st' Hl Hb ltac:(lia)) as (u & m & Em & Hu).
      exists u, m. split; [lia | exact Hu].
  Qed.

  (** Every reachable type has a distance once the search has ended. *)
  Lemma dist_bound m u k : (forall v, ~ dist v m) -> dist u k -> k < m.
  Proof. intros Hm Hu. destruct (Nat.lt_ge_cases k m) as [|C]; auto. destruct (dist_below _ _ Hu m C) as (v & Hv). exfalso. eapply Hm; eauto. Qed.
End BFS.
