(** C19, exactly: which offsets the encoder has for a promoted field, at every
    depth. *)
From Coq Require Import Lia.
From Verif Require Import Base OptionsModel IntModel TypesModel TypesFacts TagsModel TagsProof MemModel FieldsSpec FieldsModel FieldsSelect FieldsProof FieldsThm FieldsSlots InstrModel ExecModel ValueModel ExecProof HostFacts
  MarshalThm DocSpec ExampleHost ExampleConst ExampleRead Properties_Fields Properties_Members.
Local Open Scope nat_scope.

(** A struct type is scanned once, along the first of its shortest embedding
    paths. *)
Definition scanned (H : host) (t : typ) (p : list nat) (w : typ) : Prop :=
  short H t p w /\ forall q, short H t q w -> q = p \/ before p q.

(** Offsets are stored for the embedded structs of scanned structs; of several
    of one type at one depth, for the first. *)
Definition stored (H : host) (t : typ) (p : list nat) : Prop :=
  p = [] \/
  exists q i w0 b w, p = q ++ [i] /\ scanned H t q w0 /\ embeds (h_env H) (h_letter H) (h_udigit H) w0 i b w /\
    forall q' i' w1 b', scanned H t q' w1 -> length q' = length q -> embeds (h_env H) (h_letter H) (h_udigit H) w1 i' b' w ->
      q' ++ [i'] = p \/ before p (q' ++ [i']).

(** The step that offset number k of path p is taken from: of the stored paths
    of k + 1 steps that have the first r + 1 in common with p, r being the last
    length up to k at which slices are moved, the last one. *)
Definition common (H : host) (t : typ) (p : list nat) (k : nat) (q : list nat) : Prop :=
  stored H t q /\ length q = S k /\
  exists r, roomless r /\ r <= k /\ (forall r', roomless r' -> r' <= k -> r' <= r) /\ firstn (S r) q = firstn (S r) p.
Definition source (H : host) (t : typ) (p : list nat) (k : nat) (q : list nat) : Prop :=
  common H t p k q /\ forall q', common H t p k q' -> q' = q \/ before q' q.

Section Exact.
  Variables (H : host) (t : typ).
  Hypothesis W : wf_host H.
  Hypothesis T : tyok H t.

  Lemma scanned_visited p w : scanned H t p w <-> visited H t p w.
  Proof.
    split.
    - intros (Sp & Hf). apply short_dist in Sp. destruct Sp as (D & sq & P). split; [eauto|]. split; [exact D|].
      intros q sq' Pq Lq. destruct (Hf q) as [|C]; [apply short_dist; rewrite Lq; eauto | auto|]. right. apply less_before, C.
    - intros ((sq & P) & D & Hf). split; [apply short_dist; eauto|]. intros q Sq. apply short_dist in Sq. destruct Sq as (Dq & sq' & Pq).
      destruct (Hf q sq' Pq (dist_det H t _ _ _ Dq D)) as [|C]; [auto|]. right. apply before_less, C.
  Qed.

  Lemma visited_ok p w : visited H t p w -> tyok H w.
  Proof. intros ((sq & P) & _). eapply path_ok; eauto. Qed.

  Lemma stored_queued p : stored H t p <-> exists w, queued H t p w.
  Proof.
    split.
    - intros [->|(q & i & w0 & b & w & E & V & He & Hf)]; [exists t; left; auto|]. exists w. right. apply scanned_visited in V. exists q, i, w0, b.
      split; [exact E|]. split; [exact V|]. split; [apply edge_iff; [exact W | eapply visited_ok; eauto | exact He]|].
      intros q' i' w1 b' V' L E'. destruct (Hf q' i' w1 b') as [|C]; auto; [apply scanned_visited, V' | apply edge_iff in E'; [exact E' | exact W | eapply visited_ok; eauto]|].
      right. apply less_before, C.
    - intros (w & [(-> & _)|(q & i & w0 & b & E & V & He & Hf)]); [left; reflexivity|]. right. exists q, i, w0, b, w. split; [exact E|].
      split; [apply scanned_visited, V|]. split; [apply edge_iff in He; [exact He | exact W | eapply visited_ok; eauto]|].
      intros q' i' w1 b' V' L E'. apply scanned_visited in V'. destruct (Hf q' i' w1 b' V' L) as [|C]; auto; [apply edge_iff; [exact W | eapply visited_ok; eauto | exact E']|].
      right. apply before_less, C.
  Qed.

  Lemma common_sharer p k q : common H t p k q <-> sharer H t p k q.
  Proof.
    unfold common, sharer, last_roomless. rewrite stored_queued. split.
    - intros (A & B & r & C1 & C2 & C3 & C4). split; [exact A|]. split; [exact B|]. exists r. auto.
    - intros (A & B & r & (C1 & C2 & C3) & C4). split; [exact A|]. split; [exact B|]. exists r. auto.
  Qed.

  Lemma source_writer p k q : source H t p k q <-> writer H t p k q.
  Proof.
    split; intros (A & B); (split; [apply common_sharer, A|]); intros q' Hq; apply common_sharer in Hq; destruct (B q' Hq) as [|C]; auto;
      right; [apply less_before, C | apply before_less, C].
  Qed.

  Lemma path_length p sq w : steps H t p sq w -> length sq = length p.
  Proof. induction 1; [reflexivity|]. rewrite !app_length. cbn. lia. Qed.
End Exact.

Lemma nth_error_ext {A} (a b : list A) : (forall n, nth_error a n = nth_error b n) -> a = b.
Proof.
  revert b. induction a as [|x a IH]; intros [|y b] G; [reflexivity | | |]; try (specialize (G 0); discriminate).
  f_equal; [specialize (G 0); injection G; auto | apply IH; intros n; apply (G (S n))].
Qed.

(** The offsets recorded for a field: each of them has one source, and is the
    offset of the last step of that path. *)
Theorem C19_sources H vcall t k fs f : host_ok H vcall -> tyok H t -> structFields H k t = Some fs -> In f fs ->
  exists p i sq w fs' l, f_index f = p ++ [i] /\ steps H t p sq w /\ struct_of (h_env H) w fs' /\
    f_seq f = l ++ [(h_off H fs' i, false)] /\ length l = length p /\
    forall n, n < length p -> exists q, source H t p n q /\ (forall q', source H t p n q' -> q' = q) /\
      forall sq' w', steps H t q sq' w' -> nth_error l n = nth_error sq' n.
Proof.
  intros OK Ty S Hf. assert (W := ok_wf _ _ OK). destruct (structFields_slots H W t Ty k fs f S Hf) as (p & w & i & l & V & Ei & (Ll & Hl) & Es).
  destruct (structFields_data H W t Ty k fs f S Hf) as (p' & sq & w' & i' & v & opts & A1 & A2 & (fs' & d & n & B1 & _) & _).
  rewrite Ei in A1. apply app_inj_tail in A1. destruct A1 as (<- & <-). assert (V' := V). destruct V' as ((sq0 & P0) & _).
  destruct (path_det H W t Ty _ _ _ P0 _ _ A2) as (-> & ->). exists p, i, sq, w', fs', l. split; [exact Ei|]. split; [exact A2|]. split; [exact B1|].
  split; [rewrite Es, <- (struct_fields H w' fs' B1); reflexivity|]. split; [exact Ll|]. intros m Hm.
  destruct (Hl m Hm) as (q & sq1 & w1 & Wr & P1 & E1). exists q. split; [apply source_writer; auto|].
  split; [intros q' Hq; apply source_writer in Hq; auto; eapply writer_det; eauto|].
  intros sq2 w2 P2. destruct (path_det H W t Ty _ _ _ P1 _ _ P2) as (<- & <-). exact E1.
Qed.

(** So a promoted field is read at the offsets of its path if and only if each
    step of the path has the offset of its source. *)
Theorem C19_exact H vcall t k fs f p i sq w fs' : host_ok H vcall -> tyok H t -> structFields H k t = Some fs -> In f fs ->
  f_index f = p ++ [i] -> steps H t p sq w -> struct_of (h_env H) w fs' ->
  (f_seq f = sq ++ [(h_off H fs' i, false)] <->
   forall n q sq' w', n < length p -> source H t p n q -> steps H t q sq' w' -> nth_error sq' n = nth_error sq n).
Proof.
  intros OK Ty S Hf Ei P U. assert (W := ok_wf _ _ OK). destruct (C19_sources H vcall t k fs f OK Ty S Hf) as (p1 & i1 & sq1 & w1 & fs1 & l & A1 & A2 & A3 & A4 & A5 & A6).
  rewrite Ei in A1. apply app_inj_tail in A1. destruct A1 as (<- & <-). destruct (path_det H W t Ty _ _ _ P _ _ A2) as (<- & <-).
  assert (fs1 = fs') by (unfold struct_of in *; congruence). subst fs1. rewrite A4. split.
  - intros E n q sq' w' Hn Hq Pq. apply app_inj_tail in E. destruct E as (-> & _). destruct (A6 n Hn) as (q0 & _ & B2 & B3). rewrite <- (B2 q Hq) in B3. symmetry. eapply B3; eauto.
  - intros G. f_equal. apply nth_error_ext. intros n. destruct (Nat.lt_ge_cases n (length p)) as [Hn|Hn].
    + destruct (A6 n Hn) as (q & B1 & _ & B3). assert (Sq : stored H t q) by apply B1. apply (stored_queued H t W Ty) in Sq. destruct Sq as (w2 & Q2).
      destruct (queued_path H W t Ty q w2 Q2) as (sq2 & P2). rewrite (B3 _ _ P2). eapply G; eauto.
    + rewrite !(proj2 (nth_error_None _ _)); [reflexivity | rewrite (path_length H t _ _ _ P); exact Hn | lia].
Qed.

(** The types of C19_promoted_refuted, where X is promoted along 0, 0, 0, 0 and
    Y along 0, 0, 0, 1: the fourth offset of X is that of the last step of Y. *)
Notation T0 := (TNamed 5%nat).
Lemma deep_wf : wf_host deepH. Proof. apply (ok_wf _ _ deep_ok). Qed.
Lemma deep_paths p sq w : steps deepH T0 p sq w ->
  (p = [] /\ sq = [] /\ w = T0) \/ (p = [0] /\ sq = [(0%Z, false)] /\ w = TNamed 4%nat) \/
  (p = [0; 0] /\ sq = [(0%Z, false); (0%Z, false)] /\ w = TNamed 3%nat) \/
  (p = [0; 0; 0] /\ sq = [(0%Z, false); (0%Z, false); (0%Z, false)] /\ w = TNamed 2%nat) \/
  (p = [0; 0; 0; 0] /\ sq = [(0%Z, false); (0%Z, false); (0%Z, false); (0%Z, false)] /\ w = TNamed 0%nat) \/
  (p = [0; 0; 0; 1] /\ sq = [(0%Z, false); (0%Z, false); (0%Z, false); (8%Z, false)] /\ w = TNamed 1%nat).
Proof.
  induction 1 as [|p sq w i b fs u P IH E U]; [auto|].
  assert (Ty : tyok deepH w) by (apply (path_ok deepH deep_wf T0 I _ _ _ P)).
  apply (edge_iff deepH deep_wf) in E; [|exact Ty]. destruct E as (d & v & N & C & -> & ->). apply struct_fields in U. subst fs.
  destruct IH as [(-> & -> & ->)|[(-> & -> & ->)|[(-> & -> & ->)|[(-> & -> & ->)|[(-> & -> & ->)|(-> & -> & ->)]]]]];
    (destruct i as [|[|[|i]]]; vm_compute in N; try discriminate; injection N as <- <-; try (vm_compute in C; discriminate)).
  - right; left. repeat split.
  - right; right; left. repeat split.
  - right; right; right; left. repeat split.
  - right; right; right; right; left. repeat split.
  - right; right; right; right; right. repeat split.
Qed.

Lemma deep_step p sq w i d v fs : steps deepH T0 p sq w -> fields_of deepH w = fs -> nth_error fs i = Some (d, v) -> classify deepH d v = FEmbed ->
  steps deepH T0 (p ++ [i]) (sq ++ [(h_off deepH fs i, is_ptr deepH v)]) (strip_ptr v).
Proof. intros P <- N C. apply (path_snoc deepH deep_wf T0 I); [exact P|]. exists d, v. auto. Qed.

Lemma deep_path3 : steps deepH T0 [0; 0; 0] [(0%Z, false); (0%Z, false); (0%Z, false)] (TNamed 2%nat).
Proof.
  apply (deep_step [0; 0] [(0%Z, false); (0%Z, false)] (TNamed 3%nat) 0 (fst (emb "T3" (TNamed 2))) (TNamed 2%nat) [emb "T3" (TNamed 2)]); [|vm_compute; reflexivity | vm_compute; reflexivity | vm_compute; reflexivity].
  apply (deep_step [0] [(0%Z, false)] (TNamed 4%nat) 0 (fst (emb "T2" (TNamed 2))) (TNamed 3%nat) [emb "T2" (TNamed 3)]); [|vm_compute; reflexivity | vm_compute; reflexivity | vm_compute; reflexivity].
  apply (deep_step [] [] T0 0 (fst (emb "T1" (TNamed 2))) (TNamed 4%nat) [emb "T1" (TNamed 4)]); [constructor |vm_compute; reflexivity | vm_compute; reflexivity | vm_compute; reflexivity].
Qed.
Lemma deep_path4 i : i < 2 -> steps deepH T0 [0; 0; 0; i] [(0%Z, false); (0%Z, false); (0%Z, false); (if i =? 0 then 0%Z else 8%Z, false)] (TNamed i).
Proof.
  intros Hi. destruct i as [|[|i]]; [| |lia].
  - apply (deep_step _ _ _ 0 (fst (emb "A" (TNamed 0))) (TNamed 0%nat) [emb "A" (TNamed 0); emb "B" (TNamed 1)] deep_path3); vm_compute; reflexivity.
  - apply (deep_step _ _ _ 1 (fst (emb "B" (TNamed 0))) (TNamed 1%nat) [emb "A" (TNamed 0); emb "B" (TNamed 1)] deep_path3); vm_compute; reflexivity.
Qed.

Ltac paths := match goal with P : steps deepH T0 _ _ _ |- _ => apply deep_paths in P; decompose [or and] P; clear P; subst; try discriminate end.

Lemma deep_scanned : scanned deepH T0 [0; 0; 0] (TNamed 2%nat).
Proof.
  split.
  - split; [eexists; exact deep_path3|]. intros q sq P. paths. cbn. lia.
  - intros q ((sq & P) & _). paths. auto.
Qed.
Lemma deep_stored i : i < 2 -> stored deepH T0 [0; 0; 0; i].
Proof.
  intros Hi. right. exists [0; 0; 0], i, (TNamed 2%nat), false, (TNamed i). split; [reflexivity|]. split; [exact deep_scanned|].
  assert (Ty : tyok deepH (TNamed 2%nat)) by exact I. split.
  - apply (edge_iff deepH deep_wf); [exact Ty|]. destruct i as [|[|i]]; [| |lia].
    + exists (fst (emb "A" (TNamed 0))), (TNamed 0%nat). repeat split.
    + exists (fst (emb "B" (TNamed 1))), (TNamed 1%nat). repeat split.
  - intros q' i' w1 b' ((( sq & P) & _) & _) L E. assert (Tw : tyok deepH w1) by (apply (path_ok deepH deep_wf T0 I _ _ _ P)).
    apply (edge_iff deepH deep_wf) in E; [|exact Tw]. assert (P2 := path_snoc deepH deep_wf T0 I _ _ _ _ _ _ P E). clear P E Tw.
    destruct i as [|[|i]]; [| |lia]; paths; auto.
Qed.

Example C19_ex_source : source deepH T0 [0; 0; 0; 0] 3 [0; 0; 0; 1].
Proof.
  assert (R : roomless 2) by (right; exists 1; reflexivity).
  split.
  - split; [apply deep_stored; lia|]. split; [reflexivity|]. exists 2. split; [exact R|]. split; [lia|]. split; [|reflexivity].
    intros r' Hr Hl. destruct (Nat.eq_dec r' 3) as [->|]; [|lia]. apply cap_of_roomless in Hr. discriminate.
  - intros q (Sq & Lq & _). apply (stored_queued deepH T0 deep_wf I) in Sq. destruct Sq as (w & Q). apply (queued_path deepH deep_wf T0 I) in Q. destruct Q as (sq & P).
    paths; [right; apply before_less; reflexivity | left; reflexivity].
Qed.

(** The offsets recorded for X are not those of its path. *)
Example C19_ex_exact k fs f : structFields deepH k T0 = Some fs -> In f fs -> f_index f = [0; 0; 0; 0; 0] ->
  f_seq f <> [(0, false); (0, false); (0, false); (0, false); (0, false)]%Z.
Proof.
  intros S Hf Ei C. assert (P := deep_path4 0 ltac:(lia)). assert (U : struct_of (h_env deepH) (TNamed 0%nat) [fld "X" "" (TInt KInt)]) by reflexivity.
  assert (X := proj1 (C19_exact deepH plainV T0 k fs f [0; 0; 0; 0] 0 _ _ _ deep_ok I S Hf Ei P U)).
  assert (Y := X C 3 _ _ _ ltac:(cbn; lia) C19_ex_source (deep_path4 1 ltac:(lia))). discriminate.
Qed.

Print Assumptions C19_sources.
Print Assumptions C19_exact.
