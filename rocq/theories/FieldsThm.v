(** structFields against the visibility rules of FieldsSpec. *)
From Coq Require Import Permutation Sorted Lia.
From Verif Require Import Base Utf8 OptionsModel TypesModel TypesFacts TagsModel TagsProof MemModel FieldsSpec FieldsModel FieldsSelect FieldsProof.
Local Open Scope nat_scope.

Section Thm.
  Variable H : host.
  Hypothesis WF : wf_host H.
  Variable t : typ.
  Hypothesis Tok : typ_ok (h_letter H) (h_udigit H) t.
  Notation E := (h_env H).
  Notation path := (epath E (h_off H) (h_letter H) (h_udigit H) t).
  Notation cand := (candidate E (h_off H) (h_letter H) (h_udigit H) t).
  Notation steady := (unshared E (h_off H) (h_letter H) (h_udigit H) t).
  Notation dist := (dist H t).
  Notation dup2 := (dup2 H t).
  Notation entry_ok := (entry_ok H t).

  Lemma nodup_key_inj (evs : list entry) e e' : NoDup (map e_key evs) -> In e evs -> In e' evs -> e_key e = e_key e' -> e = e'.
  Proof.
    induction evs as [|c l IH]; intros Hn He He' Ek; [destruct He|]. cbn [map] in Hn. inversion Hn as [|? ? Hni Hn']; subst.
    destruct He as [->|He], He' as [->|He']; auto.
    - exfalso. apply Hni. rewrite Ek. apply in_map, He'.
    - exfalso. apply Hni. rewrite <- Ek. apply in_map, He.
  Qed.

  Lemma flds_In evs x : In x (flat_map dupl evs) <-> exists e, In e evs /\ x = e_x e.
  Proof.
    rewrite in_flat_map. split.
    - intros (e & He & Hx). exists e. split; auto. unfold dupl in Hx. destruct (e_dup e); cbn in Hx; intuition.
    - intros (e & He & ->). exists e. split; auto. unfold dupl. destruct (e_dup e); left; reflexivity.
  Qed.

  Definition found (m : nat) (evs : list entry) : Prop :=
    (forall u, ~ dist u m) /\ NoDup (map e_key evs) /\ Forall (entry_ok m) evs /\ complete H t m evs.

  Lemma structFields_found fuel fs : structFields H fuel t = Some fs ->
    exists m evs, found m evs /\ fs = select_fields (flat_map dupl evs).
  Proof.
    unfold structFields. destruct (bfs H fuel [] _) as [flds|] eqn:Eb; [|discriminate]. intros Hf. injection Hf as <-.
    destruct (bfs_inv H WF t Tok fuel 0 [] _ flds (inv_init H t Tok) Eb) as (m & Hm & evs & -> & H2 & H3 & H4).
    exists m, evs. split; [repeat split; auto | reflexivity].
  Qed.

  Section Found.
    Variables (m : nat) (evs : list entry).
    Hypothesis F : found m evs.
    Let flds := flat_map dupl evs.

    Lemma entry_index_inj e e' : In e evs -> In e' evs -> f_index (e_x e) = f_index (e_x e') -> e = e'.
    Proof.
      intros He He' Ei. destruct F as (_ & Hn & Hok & _). rewrite Forall_forall in Hok.
      destruct (Hok e He) as (n & p & sq & _ & _ & Hp & _ & (v & o & _ & Hi & _) & _).
      destruct (Hok e' He') as (n' & p' & sq' & _ & _ & Hp' & _ & (v' & o' & _ & Hi' & _) & _).
      rewrite Hi, Hi' in Ei. apply app_inj_tail in Ei. destruct Ei as (-> & Ei).
      destruct (path_det H WF t Tok _ _ _ Hp _ _ Hp') as (_ & Ew). eapply nodup_key_inj; eauto. unfold e_key. congruence.
    Qed.

    Lemma entry_cand e : In e evs -> cand (f_index (e_x e)) (f_name (e_x e)) (f_tag (e_x e)).
    Proof.
      intros He. destruct F as (_ & _ & Hok & _). rewrite Forall_forall in Hok.
      destruct (Hok e He) as (n & p & sq & _ & _ & Hp & _ & (v & o & Hr & Hi & _) & _).
      exists p, sq, (e_w e), (e_i e), v, o. split; [assumption|]. split; [|assumption].
      apply recd_iff; auto. eapply path_ok; eauto.
    Qed.

    (** Each candidate has an entry at least as good, for the same struct and field. *)
    Lemma cand_entry p sq w i v name tagged opts : path p sq w -> candidate_here E (h_letter H) (h_udigit H) w i v name tagged opts ->
      exists e n, In e evs /\ e_w e = w /\ e_i e = i /\ f_name (e_x e) = name /\ f_tag (e_x e) = tagged /\
        dist w n /\ n <= length p /\ length (f_index (e_x e)) = S n.
    Proof.
      intros Hp Hc. assert (Hw : typ_ok (h_letter H) (h_udigit H) w) by (eapply path_ok; eauto).
      apply recd_iff in Hc; auto. destruct (reach_dist H WF t Tok (length p) w) as (n & Hn & Hd); [exists p, sq; auto|].
      destruct F as (Hm & Hnd & Hok & Hcp).
      assert (Hnm : n < m) by (apply (dist_bound H WF t Tok m w n Hm Hd)).
      destruct (Hcp w n i v name tagged opts Hnm Hd Hc) as (e & He & Ew & Ei & En & Et).
      exists e, n. rewrite Forall_forall in Hok. destruct (Hok e He) as (n' & p' & sq' & _ & Hd' & _ & Hl & (v' & o' & _ & Hi & _) & _).
      rewrite Ew in Hd'. pose proof (dist_det H t _ _ _ Hd Hd'). subst. repeat split; auto; try apply Hd.
      rewrite Hi, app_length. cbn. lia.
    Qed.

    Definition rk (d : nat) (g : bool) : nat := 2 * d + (if g then 0 else 1).
    Lemma rank_le_iff d1 g1 d2 g2 : rank_le d1 g1 d2 g2 <-> rk d1 g1 <= rk d2 g2.
    Proof.
      unfold rank_le, rk. split.
      - intros [C|(-> & [Hg|Hg])]; destruct g1, g2; try discriminate; lia.
      - intros C. destruct (Nat.eq_dec d1 d2) as [->|]; [right; split; auto; destruct g1, g2; auto; lia | left; destruct g1, g2; lia].
    Qed.

    Lemma beats_iff x y : beats x y = true <-> f_name y = f_name x /\ rk (length (f_index y)) (f_tag y) <= rk (length (f_index x)) (f_tag x).
    Proof. unfold beats, rkey, rk. rewrite andb_true_iff, bytes_eqb_eq, Nat.leb_le. reflexivity. Qed.

    Lemma two_rivals x y : In x flds -> In y flds -> x <> y -> beats x y = true -> 2 <= rivals x flds.
    Proof.
      intros Hx Hy Hne Hb. apply in_split in Hx. destruct Hx as (a & b & E1). rewrite E1 in *.
      rewrite rivals_app. change (x :: b) with ([x] ++ b). rewrite rivals_app.
      assert (rivals x [x] = 1) as -> by (unfold rivals, beats; cbn; rewrite bytes_eqb_refl, Nat.leb_refl; reflexivity).
      apply in_app_or in Hy. destruct Hy as [Hy|[Hy|Hy]]; [| congruence |].
      - apply in_split in Hy. destruct Hy as (c & d & ->). rewrite rivals_app. change (y :: d) with ([y] ++ d). rewrite rivals_app.
        assert (rivals x [y] = 1) as -> by (unfold rivals; cbn; rewrite Hb; reflexivity). lia.
      - apply in_split in Hy. destruct Hy as (c & d & ->). rewrite rivals_app. change (y :: d) with ([y] ++ d). rewrite rivals_app.
        assert (rivals x [y] = 1) as -> by (unfold rivals; cbn; rewrite Hb; reflexivity). lia.
    Qed.

    Lemma rivals_flat_map x l : rivals x (flat_map dupl l) = list_sum (map (fun e => if beats x (e_x e) then length (dupl e) else 0) l).
    Proof.
      induction l as [|e l IH]; [reflexivity|]. cbn [flat_map map list_sum fold_right]. rewrite rivals_app, IH. f_equal.
      unfold rivals, dupl. destruct (e_dup e); cbn [filter]; destruct (beats x (e_x e)); reflexivity.
    Qed.

    (** An entry with no other rival occurs once unless it was duplicated. *)
    Lemma rivals_one e : In e evs -> (forall e', In e' evs -> beats (e_x e) (e_x e') = true -> e' = e) -> e_dup e = false ->
      rivals (e_x e) flds = 1.
    Proof.
      intros He Hu Hd. unfold flds. rewrite rivals_flat_map.
      assert (Hn : NoDup evs) by (eapply NoDup_map_inv; apply F).
      clear F. revert He Hu. induction evs as [|c l IH]; intros He Hu; [destruct He|]. inversion Hn as [|? ? Hni Hn']; subst.
      assert (Hz : ~ In e l -> list_sum (map (fun e' => if beats (e_x e) (e_x e') then length (dupl e') else 0) l) = 0).
      { intros Hne. assert (forall e', In e' l -> beats (e_x e) (e_x e') = false).
        { intros e' He'. apply not_true_is_false. intros C. apply Hne. rewrite <- (Hu e' (or_intror He') C). exact He'. }
        clear - H0. induction l as [|c l IH]; [reflexivity|]. cbn [map list_sum fold_right]. rewrite (H0 c (or_introl eq_refl)). apply IH. intros. apply H0. right. assumption. }
      cbn [map list_sum fold_right]. destruct He as [->|He].
      - unfold list_sum in Hz. rewrite Hz by exact Hni. unfold beats at 1. rewrite bytes_eqb_refl, Nat.leb_refl. unfold dupl. rewrite Hd. reflexivity.
      - replace (beats (e_x e) (e_x c)) with false.
        + apply IH; auto. intros. apply Hu; [right|]; assumption.
        + symmetry. apply not_true_is_false. intros C. apply Hni. rewrite (Hu c (or_introl eq_refl) C). exact He.
    Qed.

    Lemma dup_rivals e : In e evs -> e_dup e = true -> 2 <= rivals (e_x e) flds.
    Proof.
      intros He Hd. unfold flds. apply in_split in He. destruct He as (a & b & E1). rewrite E1. rewrite flat_map_app, rivals_app.
      cbn [flat_map]. rewrite rivals_app. unfold dupl at 2. rewrite Hd. unfold rivals at 2. unfold beats. cbn [filter].
      rewrite bytes_eqb_refl, Nat.leb_refl. cbn [andb length]. lia.
    Qed.

    Let fs := select_fields flds.
    Lemma fs_iff x : In x fs <-> exists e, In e evs /\ x = e_x e /\ rivals x flds = 1.
    Proof.
      unfold fs. rewrite (proj1 (select_fields_spec flds) x). unfold flds at 1. rewrite flds_In. split.
      - intros ((e & He & Ex) & Hr). exists e. auto.
      - intros (e & He & Ex & Hr). split; eauto.
    Qed.

    Lemma fs_entry_unique e e' : In e evs -> In e' evs -> rivals (e_x e) flds = 1 -> beats (e_x e) (e_x e') = true -> e' = e.
    Proof.
      intros He He' Hr Hb. apply (entry_index_inj e' e); auto.
      destruct (list_eq_dec Nat.eq_dec (f_index (e_x e')) (f_index (e_x e))) as [|Ne]; auto. exfalso.
      assert (2 <= rivals (e_x e) flds); [|lia]. apply (two_rivals _ (e_x e')); auto; try (unfold flds; apply flds_In; eauto). congruence.
    Qed.

    Lemma fs_least x : In x fs -> least E (h_off H) (h_letter H) (h_udigit H) t (f_index x) (f_name x) (f_tag x).
    Proof.
      intros Hx. apply fs_iff in Hx. destruct Hx as (e & He & -> & Hr). split; [apply entry_cand; auto|].
      intros j g (p & sq & w & i & v & opts & Hp & Hc & ->). apply rank_le_iff.
      destruct (cand_entry p sq w i v _ g opts Hp Hc) as (e' & n & He' & Ew & Ei & En & Et & _ & Hn & Hl).
      destruct (Nat.le_gt_cases (rk (length (f_index (e_x e))) (f_tag (e_x e))) (rk (length (p ++ [i])) g)) as [|C]; auto. exfalso.
      assert (R : rk (length (f_index (e_x e'))) (f_tag (e_x e')) <= rk (length (p ++ [i])) g).
      { rewrite Et, Hl, app_length. unfold rk. cbn [length]. lia. }
      assert (e' = e); [|subst; lia]. apply fs_entry_unique; auto. apply beats_iff. split; auto. lia.
    Qed.

    Lemma fs_only_least index name tagged : only_least E (h_off H) (h_letter H) (h_udigit H) t index name tagged ->
      exists x, In x fs /\ f_index x = index /\ f_name x = name /\ f_tag x = tagged.
    Proof.
      intros ((p & sq & w & i & v & opts & Hp & Hc & ->) & Hu).
      destruct (cand_entry p sq w i v name tagged opts Hp Hc) as (e & n & He & Ew & Ei & En & Et & Hd & Hn & Hl).
      assert (Ix : f_index (e_x e) = p ++ [i]).
      { apply (Hu _ (f_tag (e_x e))); [rewrite <- En; apply entry_cand; auto|]. apply rank_le_iff. rewrite Hl, Et, app_length. unfold rk. cbn [length]. lia. }
      assert (Hln : n = length p) by (rewrite Ix, app_length in Hl; cbn in Hl; lia). subst n.
      exists (e_x e). repeat split; auto. apply fs_iff. exists e. split; [assumption|]. split; [reflexivity|]. apply rivals_one; auto.
      - intros e' He' Hb. apply entry_index_inj; auto. rewrite Ix. apply beats_iff in Hb. destruct Hb as (Hb1 & Hb2).
        apply (Hu _ (f_tag (e_x e'))).
        + rewrite <- En, <- Hb1. apply entry_cand; auto.
        + apply rank_le_iff. rewrite Ix, Et in Hb2. exact Hb2.
      - apply not_true_is_false. intros Hdup. destruct F as (_ & _ & Hok & _). rewrite Forall_forall in Hok.
        destruct (Hok e He) as (n' & p' & sq' & _ & Hd' & Hp' & Hl' & _ & Hdd). rewrite Ew in Hd', Hdd. pose proof (dist_det H t _ _ _ Hd Hd'). subst n'.
        apply Hdd in Hdup. destruct Hdup as (k & w1 & i1 & b1 & w2 & i2 & b2 & Ek & ((p1 & sq1 & P1 & L1) & _) & ((p2 & sq2 & P2 & L2) & _) & E1 & E2 & Hne).
        assert (C : forall q sq0 w0 i0 b0, path q sq0 w0 -> length q = k -> edge H w0 i0 b0 w -> q ++ [i0] = p).
        { intros q sq0 w0 i0 b0 Hq Lq He0. pose proof (path_snoc H WF t Tok _ _ _ _ _ _ Hq He0) as Hq'.
          assert (q ++ [i0] ++ [i] = p ++ [i]) as Eq.
          { rewrite app_assoc. apply (Hu _ tagged); [exists (q ++ [i0]); do 5 eexists; split; [exact Hq'|]; split; [exact Hc | reflexivity]|].
            apply rank_le_iff. rewrite !app_length. unfold rk. cbn [length]. lia. }
          rewrite app_assoc in Eq. apply app_inj_tail in Eq. apply Eq. }
        pose proof (C _ _ _ _ _ P1 L1 E1) as C1. pose proof (C _ _ _ _ _ P2 L2 E2) as C2. rewrite <- C2 in C1. apply app_inj_tail in C1.
        destruct C1 as (-> & ->). destruct (path_det H WF t Tok _ _ _ P1 _ _ P2) as (_ & ->). apply Hne. reflexivity.
    Qed.

    (** The selection, exactly: struct types count once, at their least depth, and
        those embedded there by two fields do not count. *)
    Definition chosen (index : list nat) (name : bytes) (tagged : bool) : Prop :=
      exists p sq w i v opts, path p sq w /\ dist w (length p) /\ first_path H t p w /\ index = p ++ [i] /\
        candidate_here E (h_letter H) (h_udigit H) w i v name tagged opts /\ ~ dup2 w (length p) /\
        forall q sq' w' j v' g opts', path q sq' w' -> dist w' (length q) -> candidate_here E (h_letter H) (h_udigit H) w' j v' name g opts' ->
          rank_le (length q) g (length p) tagged -> w' = w /\ j = i.

    Lemma fs_chosen index name tagged : (exists x, In x fs /\ f_index x = index /\ f_name x = name /\ f_tag x = tagged) <-> chosen index name tagged.
    Proof.
      assert (F' := F). destruct F' as (_ & Hnd & Hok & _). rewrite Forall_forall in Hok. split.
      - intros (x & Hx & <- & <- & <-). apply fs_iff in Hx. destruct Hx as (e & He & -> & Hr).
        destruct (Hok e He) as (n & p & sq & (_ & Hf) & Hd & Hp & <- & (v & o & Hrc & Hi & _) & Hdd).
        exists p, sq, (e_w e), (e_i e), v, o. split; [exact Hp|]. split; [exact Hd|]. split; [exact Hf|]. split; [exact Hi|].
        split; [apply recd_iff; auto; eapply path_ok; eauto|]. split; [intros C; apply Hdd in C; pose proof (dup_rivals e He C); lia|].
        intros q sq' w' j v' g opts' Hq Hdq Hc Hle.
        destruct (cand_entry q sq' w' j v' _ g opts' Hq Hc) as (e' & n & He' & Ew & Ei & En & Et & _ & Hn & Hl).
        assert (e' = e); [|subst; auto]. apply fs_entry_unique; auto. apply beats_iff. split; [exact En|].
        apply rank_le_iff in Hle. rewrite Et, Hl, Hi, app_length. unfold rk in *. cbn [length]. lia.
      - intros (p & sq & w & i & v & opts & Hp & Hd & Hf & -> & Hc & Hnd2 & Hu).
        destruct (cand_entry p sq w i v name tagged opts Hp Hc) as (e & n & He & Ew & Ei & En & Et & Hd' & _ & Hl).
        destruct (Hok e He) as (n' & p' & sq' & (_ & Hf') & Hd2 & Hp' & Hl' & (v' & o' & _ & Hi & _) & Hdd). rewrite Ew in *.
        assert (Ln : n = length p) by (apply (dist_det H t w); assumption). assert (Ln' : n' = length p) by (apply (dist_det H t w); assumption). rewrite Ln' in Hl', Hdd. subst n.
        assert (Ep : p' = p).
        { destruct (Hf _ _ Hp' Hl') as [|C1]; [assumption|]. destruct (Hf' _ _ Hp (eq_sym Hl')) as [|C2]; [congruence|].
          pose proof (index_less_trans _ _ _ C1 C2) as C. rewrite index_less_irrefl in C. discriminate. }
        exists (e_x e). rewrite Hi, Ep, Ei. split; [|auto]. apply fs_iff. exists e. split; [exact He|]. split; [reflexivity|]. apply rivals_one; auto.
        + intros e' He' Hb. apply beats_iff in Hb. destruct Hb as (Hb1 & Hb2). eapply nodup_key_inj; eauto. unfold e_key. rewrite Ew, Ei.
          destruct (Hok e' He') as (n2 & p2 & sq2 & _ & D2 & P2 & <- & (v2 & o2 & R2 & I2 & _) & _).
          destruct (Hu p2 sq2 (e_w e') (e_i e') v2 (f_tag (e_x e')) o2 P2 D2) as (-> & ->); [|apply rank_le_iff|reflexivity].
          * rewrite <- En, <- Hb1. apply recd_iff; auto. eapply path_ok; eauto.
          * rewrite Hl, I2, app_length, Et in Hb2. unfold rk in *. cbn [length] in Hb2. lia.
        + apply not_true_is_false. intros C. apply Hnd2, Hdd, C.
    Qed.

    (** A struct type embedded twice at its least depth has no embedded structs itself. *)
    Definition simple_diamonds : Prop :=
      forall p q sq sq' w i b u, path p sq w -> path q sq' w -> p <> q -> length p = length q -> dist w (length p) ->
        ~ edge H w i b u.

    Lemma fs_exact x : simple_diamonds -> In x fs -> only_least E (h_off H) (h_letter H) (h_udigit H) t (f_index x) (f_name x) (f_tag x).
    Proof.
      intros SD Hx. apply fs_iff in Hx. destruct Hx as (e & He & -> & Hr). split; [apply entry_cand; auto|].
      intros j g (q & sq & w & i & v & opts & Hq & Hc & ->) Hle. apply rank_le_iff in Hle.
      destruct (cand_entry q sq w i v _ g opts Hq Hc) as (e' & n & He' & Ew & Ei & En & Et & Hd & Hn & Hl).
      assert (R : rk (length (f_index (e_x e'))) (f_tag (e_x e')) <= rk (length (q ++ [i])) g).
      { rewrite Et, Hl, app_length. unfold rk. cbn [length]. lia. }
      assert (e' = e) as ->. { apply fs_entry_unique; auto. apply beats_iff. split; auto. lia. }
      destruct F as (_ & _ & Hok & _). rewrite Forall_forall in Hok.
      destruct (Hok e He) as (n' & p & sqp & _ & Hd' & Hp & Lp & (v' & o' & _ & Hi & _) & Hdd). rewrite Ew in *.
      assert (En' : n' = n) by (eapply dist_det; eauto). rewrite En' in Lp, Hdd. clear En' Hd'.
      rewrite Ei in Hi. rewrite Hi. f_equal.
      assert (Lq : length q = n).
      { rewrite Hi, !app_length in Hle. unfold rk in Hle. cbn [length] in Hle. rewrite Et in Hle. lia. }
      destruct (list_eq_dec Nat.eq_dec q p) as [|Ne]; auto. exfalso.
      (* two distinct shortest paths to w *)
      assert (Hnd : e_dup e <> true) by (intros C; pose proof (dup_rivals e He C); lia).
      destruct n as [|n]; [destruct q, p; try discriminate; congruence|].
      destruct (exists_last (l := q)) as (q' & iq & ->); [destruct q; discriminate|].
      destruct (exists_last (l := p)) as (p' & ip & ->); [destruct p; discriminate|].
      rewrite app_length in Lp, Lq. cbn [length] in Lp, Lq.
      destruct (path_snoc_inv H WF t Tok _ _ _ _ Hq) as (sq1 & w1 & b1 & Q1 & Eq1 & _).
      destruct (path_snoc_inv H WF t Tok _ _ _ _ Hp) as (sq2 & w2 & b2 & Q2 & Eq2 & _).
      assert (D : forall r sr z k b, path r sr z -> length r = n -> edge H z k b w -> dist z n).
      { intros r sr z k b Hr' Lr Ez. split; [exists r, sr; auto|]. intros n2 Hn2 C. destruct Hd as (_ & Hm). apply (Hm (S n2)); [lia|]. eapply reach_step; eauto. }
      pose proof (D _ _ _ _ _ Q1 ltac:(lia) Eq1) as D1. pose proof (D _ _ _ _ _ Q2 ltac:(lia) Eq2) as D2.
      destruct (typ_eq_dec w1 w2) as [->|Nw].
      - destruct (Nat.eq_dec iq ip) as [->|Ni].
        + assert (Nq : q' <> p') by (intros ->; apply Ne; reflexivity).
          eapply (SD q' p' sq1 sq2 w2); eauto; [lia|]. replace (length q') with n by lia. exact D1.
        + apply Hnd, Hdd. exists n, w2, iq, b1, w2, ip, b2. repeat (split; [first [reflexivity | assumption]|]). congruence.
      - apply Hnd, Hdd. exists n, w1, iq, b1, w2, ip, b2. repeat (split; [first [reflexivity | assumption]|]). congruence.
    Qed.

    Lemma fs_strict : index_sorted fs.
    Proof.
      destruct (select_fields_spec flds) as (_ & Hnd & Hs). fold fs in Hnd, Hs.
      assert (Hin : forall x, In x fs -> exists e, In e evs /\ x = e_x e) by (intros x Hx; apply fs_iff in Hx; destruct Hx as (e & ? & ? & _); eauto).
      clearbody fs. induction Hs as [|x l Hs IH Hx]; [constructor|]. cbn [map] in Hnd. inversion Hnd as [|? ? Hni Hnd']; subst.
      constructor; [apply IH; auto; intros; apply Hin; right; auto|]. rewrite Forall_forall in *. intros y Hy. specialize (Hx y Hy).
      destruct (index_less_total (f_index x) (f_index y)) as [C|[C|C]]; auto; [congruence|]. exfalso. apply Hni.
      destruct (Hin x (or_introl eq_refl)) as (e & He & ->). destruct (Hin y (or_intror Hy)) as (e' & He' & ->).
      rewrite (entry_index_inj e e' He He' C). apply in_map, Hy.
    Qed.

    (** The recorded fields carry the data of their declaration, and the right
        offsets when the embedding path is unshared. *)
    Lemma fs_data x : In x fs -> exists p sq w i v opts,
      f_index x = p ++ [i] /\ path p sq w /\ candidate_here E (h_letter H) (h_udigit H) w i v (f_name x) (f_tag x) opts /\
      f_quoted x = (tag_contains opts (lit "string") && isBasicType E (strip_ptr v)) /\
      f_omitEmpty x = tag_contains opts (lit "omitempty") /\ f_omitNil x = tag_contains opts (lit "omitnil") /\
      (steady p -> f_seq x = sq ++ [(h_off H (fields_of H w) i, false)]).
    Proof.
      intros Hx. apply fs_iff in Hx. destruct Hx as (e & He & -> & _). destruct F as (_ & _ & Hok & _). rewrite Forall_forall in Hok.
      destruct (Hok e He) as (n & p & sq & _ & _ & Hp & _ & (v & o & Hr & Hi & Hq & Ho & Hn & Hs) & _).
      exists p, sq, (e_w e), (e_i e), v, o. split; [assumption|]. split; [assumption|].
      split; [apply recd_iff; auto; eapply path_ok; eauto|]. repeat (split; [assumption|]). exact Hs.
    Qed.
  End Found.

  (** ** The theorems about structFields *)
  Theorem structFields_sorted fuel fs : structFields H fuel t = Some fs -> index_sorted fs /\ NoDup (map f_name fs).
  Proof.
    intros Hf. destruct (structFields_found fuel fs Hf) as (m & evs & F & ->). split; [eapply fs_strict; eauto|].
    apply select_fields_spec.
  Qed.

  Theorem structFields_least fuel fs x : structFields H fuel t = Some fs -> In x fs ->
    least E (h_off H) (h_letter H) (h_udigit H) t (f_index x) (f_name x) (f_tag x).
  Proof. intros Hf. destruct (structFields_found fuel fs Hf) as (m & evs & F & ->). eapply fs_least; eauto. Qed.

  Theorem structFields_complete fuel fs index name tagged : structFields H fuel t = Some fs ->
    only_least E (h_off H) (h_letter H) (h_udigit H) t index name tagged ->
    exists x, In x fs /\ f_index x = index /\ f_name x = name /\ f_tag x = tagged.
  Proof. intros Hf. destruct (structFields_found fuel fs Hf) as (m & evs & F & ->). eapply fs_only_least; eauto. Qed.

  Theorem structFields_chosen fuel fs index name tagged : structFields H fuel t = Some fs ->
    ((exists x, In x fs /\ f_index x = index /\ f_name x = name /\ f_tag x = tagged) <-> chosen index name tagged).
  Proof. intros Hf. destruct (structFields_found fuel fs Hf) as (m & evs & F & ->). eapply fs_chosen; eauto. Qed.

  Theorem structFields_exact fuel fs x : simple_diamonds -> structFields H fuel t = Some fs -> In x fs ->
    only_least E (h_off H) (h_letter H) (h_udigit H) t (f_index x) (f_name x) (f_tag x).
  Proof. intros SD Hf. destruct (structFields_found fuel fs Hf) as (m & evs & F & ->). eapply fs_exact; eauto. Qed.

  Theorem structFields_data fuel fs x : structFields H fuel t = Some fs -> In x fs -> exists p sq w i v opts,
      f_index x = p ++ [i] /\ path p sq w /\ candidate_here E (h_letter H) (h_udigit H) w i v (f_name x) (f_tag x) opts /\
      f_quoted x = (tag_contains opts (lit "string") && isBasicType E (strip_ptr v)) /\
      f_omitEmpty x = tag_contains opts (lit "omitempty") /\ f_omitNil x = tag_contains opts (lit "omitnil") /\
      (steady p -> f_seq x = sq ++ [(h_off H (fields_of H w) i, false)]).
  Proof. intros Hf. destruct (structFields_found fuel fs Hf) as (m & evs & F & ->). eapply fs_data; eauto. Qed.

  (** The offsets of a path, as computed from the declarations. *)
  Lemma path_seq_app p sq w : path p sq w -> forall r, r <> [] ->
    path_seq H t (p ++ r) = match path_seq H w r with Some l => Some (sq ++ l) | None => None end.
  Proof.
    induction 1 as [|p sq w i b fs u Hp IH He Hs]; intros r Hr; [cbn [app]; destruct (path_seq H t r); reflexivity|].
    rewrite <- app_assoc. cbn [app]. rewrite IH by discriminate. assert (Hw : typ_ok (h_letter H) (h_udigit H) w) by (eapply path_ok; eauto).
    apply (edge_iff H WF) in He; [|exact Hw]. destruct He as (d & v & Hn & _ & -> & ->). apply struct_fields in Hs. subst fs.
    assert (Hc : path_seq H w (i :: r) = match path_seq H (strip_ptr v) r with Some l => Some ((h_off H (fields_of H w) i, is_ptr H v) :: l) | None => None end)
      by (destruct r as [|j r]; [congruence|]; cbn [path_seq]; rewrite Hn; reflexivity).
    rewrite Hc. destruct (path_seq H (strip_ptr v) r) as [l|]; [|reflexivity]. rewrite <- app_assoc. reflexivity.
  Qed.

  Lemma path_seq_field p sq w i x : path p sq w -> nth_error (fields_of H w) i = Some x ->
    path_seq H t (p ++ [i]) = Some (sq ++ [(h_off H (fields_of H w) i, false)]).
  Proof. intros Hp Hn. rewrite (path_seq_app _ _ _ Hp) by discriminate. cbn [path_seq]. rewrite Hn. destruct x. reflexivity. Qed.

  Lemma right_seq_iff x : right_seq H t x = true <-> path_seq H t (f_index x) = Some (f_seq x).
  Proof.
    unfold right_seq. destruct (path_seq H t (f_index x)) as [l|]; [|split; discriminate]. rewrite seq_eqb_eq. split; congruence.
  Qed.

  (** The recorded offsets are those of the path when it is unshared. *)
  Theorem structFields_offsets fuel fs x p i : structFields H fuel t = Some fs -> In x fs -> f_index x = p ++ [i] -> steady p -> right_seq H t x = true.
  Proof.
    intros Hf Hx Hi Hs. apply right_seq_iff. destruct (structFields_data fuel fs x Hf Hx) as (p' & sq & w & i' & v & opts & A1 & A2 & A3 & _ & _ & _ & A7).
    rewrite A1 in Hi. apply app_inj_tail in Hi. destruct Hi as (-> & ->). rewrite A1, (A7 Hs).
    destruct A3 as (fs' & d & n & B1 & B2 & _). apply struct_fields in B1. subst fs'. eapply path_seq_field; eauto.
  Qed.

  (** ... which it is up to four elements. *)
  Lemma steady_short p sq w : path p sq w -> length p <= 3 -> steady p.
  Proof.
    induction 1 as [|p sq w i b fs u Hp IH He Hs]; intros Hl; [constructor|]. rewrite app_length in Hl. cbn [length] in Hl.
    eapply us_snoc; [exact Hp | apply IH; lia|]. left. apply cap_of_roomless. destruct (length p) as [|[|[|n]]]; try reflexivity. lia.
  Qed.

  (** The search ends when finitely many types are reachable. *)
  Theorem structFields_total (L : list typ) : (forall p sq u, path p sq u -> In u L) ->
    exists fs, structFields H (S (length L)) t = Some fs.
  Proof.
    intros HL. unfold structFields. destruct (bfs H (S (length L)) [] _) as [flds|] eqn:Eb; [eauto|]. exfalso.
    destruct (bfs_fuel H WF t Tok _ 0 [] _ (inv_init H t Tok) Eb ltac:(lia)) as (u & n & En & Hd).
    assert (n = length L) by lia. subst n. clear En.
    assert (G : forall n u, dist u n -> exists l, length l = S n /\ NoDup l /\ forall v, In v l -> exists k, k <= n /\ dist v k).
    { induction n as [|n IH]; intros v Hv.
      - exists [v]. split; [reflexivity|]. split; [repeat constructor; intros []|]. intros v' [<-|[]]. exists 0. auto.
      - destruct (dist_step_inv H WF t Tok _ _ Hv) as (w & i & b & Hw & _). destruct (IH w Hw) as (l & L1 & L2 & L3).
        exists (v :: l). split; [cbn; lia|]. split.
        + constructor; auto. intros C. destruct (L3 v C) as (k & Hk & Hd'). pose proof (dist_det H t _ _ _ Hv Hd'). lia.
        + intros v' [<-|Hv']; [exists (S n); auto|]. destruct (L3 v' Hv') as (k & Hk & Hd'). exists k. split; [lia|exact Hd']. }
    destruct (G _ _ Hd) as (l & L1 & L2 & L3).
    assert (incl l L) as Hi. { intros v Hv. destruct (L3 v Hv) as (k & _ & ((p & sq & Hp & _) & _)). eapply HL; eauto. }
    pose proof (NoDup_incl_length L2 Hi). lia.
  Qed.
End Thm.
