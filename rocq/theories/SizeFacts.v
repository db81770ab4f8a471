(** The values reached by the selected fields of a struct are distinct parts of
    it: no selected path leads through another one.  Used to bound the length of
    the output (C70). *)
From Verif Require Import Base Utf8 TypesModel TagsProof FieldsSpec OptionsModel MemModel FieldsModel FieldsThm InstrModel ExecModel ValueModel ExecProof Properties_Fields Properties_Embed.

(** ** Sums *)
Definition sum_of {A} (f : A -> nat) (l : list A) : nat := list_sum (map f l).
Lemma sum_cons {A} (f : A -> nat) x l : sum_of f (x :: l) = (f x + sum_of f l)%nat.
Proof. reflexivity. Qed.
Lemma sum_le {A} (f g : A -> nat) l : (forall x, In x l -> f x <= g x)%nat -> (sum_of f l <= sum_of g l)%nat.
Proof.
  induction l as [|x l IH]; intros L; [reflexivity|]. rewrite !sum_cons. apply Nat.add_le_mono; [apply L; left; reflexivity|]. apply IH. intros y Hy. apply L. right. exact Hy.
Qed.
Lemma sum_add {A} (f g : A -> nat) l : sum_of (fun x => f x + g x)%nat l = (sum_of f l + sum_of g l)%nat.
Proof. induction l as [|x l IH]; [reflexivity|]. rewrite !sum_cons, IH. lia. Qed.
Lemma sum_zero {A} (l : list A) : sum_of (fun _ => 0%nat) l = 0%nat.
Proof. induction l as [|x l IH]; [reflexivity|]. rewrite sum_cons, IH. reflexivity. Qed.
Lemma sum_swap {A B} (f : A -> B -> nat) l r : sum_of (fun a => sum_of (f a) r) l = sum_of (fun b => sum_of (fun a => f a b) l) r.
Proof.
  induction l as [|a l IH]; [symmetry; apply sum_zero|]. rewrite sum_cons, IH. rewrite <- sum_add. reflexivity.
Qed.

(** ** Sets of paths *)
Definition apart (ps : list (list nat)) : Prop := forall p r, In p ps -> In (p ++ r) ps -> r = [].

Definition tail_at (i : nat) (p : list nat) : list (list nat) := match p with j :: r => if (j =? i)%nat then [r] else [] | [] => [] end.
Definition tails (i : nat) (ps : list (list nat)) : list (list nat) := flat_map (tail_at i) ps.
Lemma in_tails i ps r : In r (tails i ps) <-> In (i :: r) ps.
Proof.
  unfold tails. rewrite in_flat_map. split.
  - intros (p & Hp & Hr). destruct p as [|j p]; [destruct Hr|]. cbn in Hr. destruct (Nat.eqb_spec j i) as [->|]; [|destruct Hr]. destruct Hr as [->|[]]. exact Hp.
  - intros Hp. exists (i :: r). split; [exact Hp|]. cbn. rewrite Nat.eqb_refl. left. reflexivity.
Qed.
Lemma tails_nodup i ps : NoDup ps -> NoDup (tails i ps).
Proof.
  induction 1 as [|p ps Hn _ IH]; [constructor|]. unfold tails. cbn [flat_map]. fold (tails i ps). destruct p as [|j p]; [exact IH|]. cbn [tail_at].
  destruct (Nat.eqb_spec j i) as [->|]; [|exact IH]. cbn [app]. constructor; [|exact IH]. rewrite in_tails. exact Hn.
Qed.
Lemma tails_apart i ps : apart ps -> apart (tails i ps).
Proof. intros A p r Hp Hr. rewrite in_tails in *. apply (A (i :: p) r); assumption. Qed.
Lemma tails_sum (g : list nat -> nat) i ps : sum_of (fun p => match p with j :: _ => if (j =? i)%nat then g p else 0%nat | [] => 0%nat end) ps = sum_of (fun r => g (i :: r)) (tails i ps).
Proof.
  induction ps as [|p ps IH]; [reflexivity|]. rewrite sum_cons, IH. unfold tails at 2. cbn [flat_map]. fold (tails i ps). destruct p as [|j p]; [reflexivity|]. cbn [tail_at].
  destruct (Nat.eqb_spec j i) as [->|]; [|reflexivity]. cbn [app]. rewrite sum_cons. reflexivity.
Qed.

(** ** The parts the paths lead to *)
Section Paths.
  Variable W : val -> nat.
  Hypothesis Wptr : forall v, W (VPtr v) = W v.
  Hypothesis Wstruct : forall vs, (sum_of W vs <= W (VStruct vs))%nat.

  Definition at_path (v : val) (p : list nat) : nat := match vget p v with Some (Some x) => W x | _ => 0%nat end.
  Definition inner (v : val) : nat := match v with VStruct vs => sum_of W vs | _ => 0%nat end.
  Lemma inner_le v : (inner v <= W v)%nat.
  Proof. destruct v; cbn [inner]; try lia. apply Wstruct. Qed.

  Lemma sum_nth (f : nat -> nat) : forall vs, (forall i v, nth_error vs i = Some v -> f i <= W v)%nat -> (sum_of f (seq 0 (length vs)) <= sum_of W vs)%nat.
  Proof.
    intros vs. revert f. induction vs as [|v vs IH]; intros f L; [reflexivity|]. cbn [length seq]. rewrite !sum_cons. apply Nat.add_le_mono; [apply (L 0%nat); reflexivity|].
    unfold sum_of at 1. rewrite <- seq_shift, map_map. apply (IH (fun i => f (S i))). intros i w Hi. apply (L (S i)). exact Hi.
  Qed.
  Lemma sum_pick (x : nat) (c : nat) n : forall k, (k <= x < k + n)%nat -> (c <= sum_of (fun i => if (x =? i)%nat then c else 0%nat) (seq k n))%nat.
  Proof.
    induction n as [|n IH]; intros k Hx; [lia|]. cbn [seq]. rewrite sum_cons. destruct (Nat.eqb_spec x k) as [->|N]; [lia|]. specialize (IH (S k)). lia.
  Qed.

  Lemma paths_sum : forall n ps v, Forall (fun p => (0 < length p <= n)%nat) ps -> NoDup ps -> apart ps -> (sum_of (at_path v) ps <= inner v)%nat.
  Proof.
    induction n as [|n IH]; intros ps v L N A.
    - destruct ps as [|p ps]; [cbn; lia|]. inversion L; subst. lia.
    - assert (Z0 : (forall vs, v <> VStruct vs) -> (sum_of (at_path v) ps <= inner v)%nat).
      { intros Hv. transitivity (sum_of (fun _ : list nat => 0%nat) ps); [|rewrite sum_zero; lia]. apply sum_le. intros p Hp. rewrite Forall_forall in L. specialize (L p Hp). unfold at_path. destruct p as [|i p]; [cbn in L; lia|]. cbn [vget].
        destruct v; try lia. exfalso. eapply Hv; reflexivity. }
      destruct v as [b|z|f|s| |v|t v|vs|vs|es|vs|g|es|]; try (apply Z0; discriminate). clear Z0. cbn [inner].
      transitivity (sum_of (fun i => sum_of (fun p => match p with j :: _ => if (j =? i)%nat then at_path (VStruct vs) p else 0%nat | [] => 0%nat end) ps) (seq 0 (length vs))).
      + rewrite <- sum_swap. apply sum_le. intros p Hp. rewrite Forall_forall in L. specialize (L p Hp). destruct p as [|j p]; [cbn in L; lia|].
        destruct (Nat.lt_ge_cases j (length vs)) as [Hj|Hj]; [apply sum_pick; lia|]. apply nth_error_None in Hj. unfold at_path at 1. cbn [vget]. rewrite Hj. lia.
      + apply sum_nth. intros i v Hi. rewrite tails_sum.
        assert (Ni := tails_nodup i ps N). assert (Ai := tails_apart i ps A).
        destruct (in_dec (list_eq_dec Nat.eq_dec) [] (tails i ps)) as [He|He].
        * assert (All : forall r, In r (tails i ps) -> r = []) by (intros r Hr; apply (Ai [] r He Hr)).
          destruct (tails i ps) as [|r [|r' l]]; [cbn; lia| |].
          -- rewrite (All r) by (left; reflexivity). unfold sum_of. cbn [map list_sum fold_right]. unfold at_path. cbn [vget]. rewrite Hi. lia.
          -- exfalso. inversion Ni as [|? ? Nr _]; subst. apply Nr. left. rewrite (All r), (All r'); [reflexivity | right; left; reflexivity | left; reflexivity].
        * assert (Li : Forall (fun p => (0 < length p <= n)%nat) (tails i ps)).
          { rewrite Forall_forall in *. intros r Hr. split.
            - destruct r; [contradiction | cbn; lia].
            - apply in_tails in Hr. specialize (L _ Hr). cbn [length] in L. lia. }
          transitivity (sum_of (at_path (match v with VPtr w => w | _ => v end)) (tails i ps)).
          -- apply sum_le. intros r Hr. destruct r as [|j r]; [contradiction|]. unfold at_path. change (vget (i :: j :: r) (VStruct vs)) with (match nth_error vs i with None => None | Some v' => match v' with VPtr w => vget (j :: r) w | VNil => Some None | _ => vget (j :: r) v' end end). rewrite Hi. destruct v; lia.
          -- etransitivity; [apply IH; assumption|]. etransitivity; [apply inner_le|]. destruct v; rewrite ?Wptr; lia.
  Qed.
End Paths.

(** ** The selected fields *)
Section Selected.
  Variable H : host.
  Variable vcall : mkind -> typ -> val -> option Z -> bytes + Z.
  Hypothesis OK : host_ok H vcall.
  Notation E := (h_env H).
  Notation here := (candidate_here E (h_letter H) (h_udigit H)).

  Lemma tag_name_inj d n opts n' opts' : tag_name d n opts -> tag_name d n' opts' -> n = n'.
  Proof.
    intros (A & B & C) (A' & B' & C'). assert (X : n :: opts = n' :: opts') by (apply join_inj; [constructor; assumption | constructor; assumption | discriminate | discriminate | congruence]). congruence.
  Qed.
  Lemma deref_det u a b : deref u a -> deref u b -> a = b.
  Proof. intros [-> | [N ->]] [D | [N' D]]; congruence. Qed.

  (** A field is a candidate or embeds a struct, not both. *)
  Lemma here_or_embeds w i u name tagged opts b t' : here w i u name tagged opts -> embeds_ H w i b t' -> False.
  Proof.
    intros (fs & d & n & A1 & A2 & A3 & A4 & A5) (fs' & d' & u' & n' & o' & B1 & B2 & B3 & B4 & B5 & B6 & B7 & B8 & _).
    unfold struct_of in *. assert (fs' = fs) by congruence. subst fs'. rewrite A2 in B2. injection B2 as <- <-. rewrite (tag_name_inj _ _ _ _ _ B5 A4) in B6.
    destruct A5 as [(V & _)|(_ & _ & _ & K)]; [contradiction|]. apply (K B4 t' B7 B8).
  Qed.
  Lemma embeds_det w i b t b' t' : embeds_ H w i b t -> embeds_ H w i b' t' -> t = t'.
  Proof.
    intros (fs & d & u & n & o' & B1 & B2 & _ & _ & _ & _ & B7 & _) (fs' & d' & u' & n' & o'' & C1 & C2 & _ & _ & _ & _ & C7 & _).
    unfold struct_of in *. assert (fs' = fs) by congruence. subst fs'. rewrite B2 in C2. injection C2 as <- <-. eapply deref_det; eauto.
  Qed.
  Lemma found_apart p : forall t r u name tagged opts u' name' tagged' opts', found_at H t p u name tagged opts -> found_at H t (p ++ r) u' name' tagged' opts' -> r = [].
  Proof.
    induction p as [|i p IH]; intros t r u name tagged opts u' name' tagged' opts' A B; [exfalso; eapply found_nil; eauto|].
    cbn [app] in B. rewrite found_cons in A, B. destruct A as [[-> A]|(b & w & A1 & A2)], B as [[B1 B2]|(b' & w' & B1 & B2)].
    - apply app_eq_nil in B1. tauto.
    - exfalso. eapply here_or_embeds; eauto.
    - apply app_eq_nil in B1. destruct B1 as [_ ->]. reflexivity.
    - rewrite (embeds_det _ _ _ _ _ _ A1 B1) in A2. exact (IH _ _ _ _ _ _ _ _ _ _ A2 B2).
  Qed.

  Lemma before_irrefl p : ~ before p p.
  Proof. induction p as [|x p IH]; intros B; inversion B; subst; [lia | tauto]. Qed.
  Lemma selected_paths t k fs : tyok H t -> structFields H k t = Some fs ->
    NoDup (map f_index fs) /\ apart (map f_index fs) /\ Forall (fun p => (0 < length p)%nat) (map f_index fs).
  Proof.
    intros T F. assert (D : forall f, In f fs -> exists u opts, found_at H t (f_index f) u (f_name f) (f_tag f) opts).
    { intros f Hf. destruct (structFields_data H (ok_wf _ _ OK) t T k fs f F Hf) as (p & sq & w & i & v & opts & A1 & A2 & A3 & _). exists v, opts, p, sq, w, i. auto. }
    split; [|split].
    - destruct (C18_order_unique H vcall t k fs OK T F) as [S0 _]. revert S0. generalize (map f_index fs). clear. induction 1 as [|p l _ IH Hx]; constructor; [|exact IH]. intros Hi. rewrite Forall_forall in Hx. exact (before_irrefl p (Hx p Hi)).
    - intros p r Hp Hq. apply in_map_iff in Hp, Hq. destruct Hp as (f & <- & Hf), Hq as (g & Eg & Hg). destruct (D f Hf) as (u & opts & A), (D g Hg) as (u' & opts' & B). rewrite Eg in B. exact (found_apart _ _ _ _ _ _ _ _ _ _ _ A B).
    - apply Forall_forall. intros p Hp. apply in_map_iff in Hp. destruct Hp as (f & <- & Hf). destruct (D f Hf) as (u & opts & A). destruct (f_index f); [exfalso; eapply found_nil; eauto | cbn; lia].
  Qed.

  (** The values of the selected fields weigh together at most what the struct
      weighs. *)
  Lemma selected_sum (W : val -> nat) (Wptr : forall v, W (VPtr v) = W v) (Wstruct : forall vs, (sum_of W vs <= W (VStruct vs))%nat) t k fs vs : tyok H t -> structFields H k t = Some fs ->
    (sum_of (fun f => at_path W (VStruct vs) (f_index f)) fs <= sum_of W vs)%nat.
  Proof.
    intros T F. destruct (selected_paths t k fs T F) as (N & A & L).
    assert (X := paths_sum W Wptr Wstruct (list_max (map (@length nat) (map f_index fs))) (map f_index fs) (VStruct vs)).
    unfold sum_of at 1. rewrite <- (map_map f_index (at_path W (VStruct vs))). apply X; [|exact N | exact A]. apply Forall_forall. intros p Hp. rewrite Forall_forall in L. split; [apply L; exact Hp|].
    assert (M := proj1 (list_max_le (map (@length nat) (map f_index fs)) _) (Nat.le_refl _)). rewrite Forall_forall in M. apply M, List.in_map, Hp.
  Qed.
End Selected.
