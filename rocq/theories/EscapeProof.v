(** appendEscapedBytes: the code's loop refines a map over the UTF-8
    decomposition of its input. *)
From Verif Require Import Base Utf8 JsonSpec OptionsModel EscapeModel.

(** What is written for one element of the decomposition of the input. *)
Definition esc_seg (nc ne : bool) (u : Z + Z) : bytes :=
  match u with
  | inl r =>
    if r <? 0x80 then (if plain ne r then [r] else esc_ascii r)
    else if nc then utf8 r
    else if (r =? 0x2028) || (r =? 0x2029) then l_u202 ++ [hex_at (Z.land r 15)]
    else utf8 r
  | inr b => if nc then [b] else l_ufffd
  end.

Lemma flush_eq dst b at0 i : flush dst b at0 i = dst ++ sub b at0 i.
Proof.
  unfold flush. destruct (at0 <? i)%nat eqn:E; [reflexivity|].
  rewrite sub_nil by lia. rewrite app_nil_r. reflexivity.
Qed.

Lemma segments_cons_inv s us : segments s us -> s <> [] -> bytes_ok s ->
  exists u us' n, us = u :: us' /\ segments (skipn n s) us' /\ (1 <= n <= length s)%nat /\
    match u with
    | inl r => scalar r /\ firstn n s = utf8 r /\ decode_rune s = (r, n) /\ length (utf8 r) = n
    | inr b => n = 1%nat /\ s = b :: skipn 1 s /\ 0x80 <= b /\ decode_rune s = (rune_error, 1%nat)
    end.
Proof.
  intros H Hne Hok. destruct H as [|r s us Hr H|b s us Hn H]; [congruence| |].
  - exists (inl r), us, (length (utf8 r)). rewrite skipn_app_exact, firstn_app_exact, app_length.
    assert (L := utf8_length r). repeat split; auto; try lia. apply decode_rune_utf8, Hr.
  - exists (inr b), us, 1%nat. cbn [skipn length]. repeat split; auto; try lia.
    + eapply no_rune_high; eauto. inversion Hok; unfold is_byte in *; lia.
    + apply no_rune_decode; auto.
Qed.

Lemma at_skipn s i : (i < length s)%nat -> nth 0 (skipn i s) 0 = at_ s i.
Proof. intros H. rewrite skipn_cons_at by assumption. reflexivity. Qed.

Lemma esc_loop_spec nc ne b us0 : bytes_ok b ->
  forall fuel us i at0 dst, us0 = us -> segments (skipn i b) us -> (at0 <= i <= length b)%nat ->
    (length b - i < fuel)%nat ->
    esc_loop fuel nc ne b i at0 dst = Some (dst ++ sub b at0 i ++ flat_map (esc_seg nc ne) us).
Proof.
  intros Hok fuel us i at0 dst _. revert us i at0 dst.
  induction fuel as [|fuel IH]; intros us i at0 dst Hs Hi Hf; [lia|].
  cbn [esc_loop].
  destruct (i <? length b)%nat eqn:Ei.
  2:{ assert (i = length b) by lia. subst i.
      rewrite skipn_all in Hs. inversion Hs; subst.
      2:{ exfalso. destruct (utf8 r) eqn:E; [eapply utf8_nonempty; eauto | discriminate]. }
      simpl. rewrite app_nil_r, sub_full by lia.
      destruct (at0 <? length b)%nat eqn:E; [reflexivity|].
      assert (at0 = length b) by lia. subst. rewrite skipn_all, app_nil_r. reflexivity. }
  assert (Hlt : (i < length b)%nat) by lia.
  assert (Hne : skipn i b <> []) by (rewrite skipn_nil_iff; lia).
  assert (Hok' : bytes_ok (skipn i b)) by (apply Forall_skipn, Hok).
  destruct (segments_cons_inv _ _ Hs Hne Hok') as (u & us' & n & -> & Hs' & Hn & Hu).
  rewrite skipn_skipn in Hs'. rewrite skipn_length in Hn.
  replace (n + i)%nat with (i + n)%nat in Hs' by lia.
  assert (Hc : at_ b i = nth 0 (skipn i b) 0) by (symmetry; apply at_skipn; lia).
  cbn [flat_map].
  destruct u as [r|bb].
  - destruct Hu as (Hr & Hfn & Hdec & Hlen).
    assert (Hsub : forall a, (a <= i)%nat -> sub b a (i + n) = sub b a i ++ utf8 r).
    { intros a Ha. rewrite sub_extend by lia. rewrite Hfn. reflexivity. }
    destruct (at_ b i <? 0x80) eqn:Ec.
    + (* ASCII *)
      assert (Hra : r = at_ b i /\ n = 1%nat).
      { rewrite skipn_cons_at in Hdec by lia. cbn [decode_rune] in Hdec. rewrite Ec in Hdec.
        injection Hdec as -> <-. auto. }
      destruct Hra as [Hra ->]. subst r. unfold esc_seg at 1. rewrite Ec.
      rewrite utf8_ascii in Hsub.
      2:{ assert (is_byte (at_ b i)); [|unfold is_byte in *; lia].
          rewrite skipn_cons_at in Hok' by lia. inversion Hok'; assumption. }
      destruct (plain ne (at_ b i)).
      * rewrite (IH us') by (try lia; rewrite <- Nat.add_1_r; exact Hs').
        replace (S i) with (i + 1)%nat by lia. rewrite Hsub by lia. rewrite <- !app_assoc. reflexivity.
      * rewrite (IH us') by (try lia; rewrite <- Nat.add_1_r; exact Hs').
        rewrite sub_nil by lia. rewrite flush_eq, <- !app_assoc. reflexivity.
    + assert (Hr80 : (r <? 0x80) = false).
      { destruct (r <? 0x80) eqn:E; [|reflexivity]. exfalso.
        assert (Hu8 : utf8 r = [r]) by (apply utf8_ascii; unfold scalar in Hr; lia).
        rewrite Hu8 in *. simpl in Hlen. subst n.
        rewrite skipn_cons_at in Hfn by lia. simpl in Hfn. injection Hfn as Hfn. lia. }
      rewrite Hdec. cbn [esc_seg]. rewrite Hr80.
      assert (Hnot1 : (n =? 1)%nat = false).
      { destruct (n =? 1)%nat eqn:E; [|reflexivity]. exfalso.
        assert (n = 1%nat) by lia. subst n. unfold utf8 in *.
        rewrite Hr80 in *. destruct (r <? 0x800), (r <? 0x10000); simpl in *; lia. }
      rewrite Hnot1, andb_false_r.
      destruct nc; cbn [negb].
      * rewrite (IH us') by (try lia; exact Hs'). rewrite Hsub by lia. rewrite <- !app_assoc. reflexivity.
      * destruct ((r =? 0x2028) || (r =? 0x2029)) eqn:E2.
        -- rewrite (IH us') by (try lia; exact Hs'). rewrite sub_nil by lia.
           rewrite flush_eq, <- !app_assoc. reflexivity.
        -- rewrite (IH us') by (try lia; exact Hs'). rewrite Hsub by lia. rewrite <- !app_assoc. reflexivity.
  - destruct Hu as (-> & Hb & Hhi & Hdec).
    assert (Ea : at_ b i = bb) by (rewrite Hc, Hb; reflexivity).
    rewrite Ea. replace (bb <? 0x80) with false by lia.
    rewrite Hdec. rewrite Z.eqb_refl. cbn [esc_seg andb Nat.eqb].
    destruct nc; cbn [negb].
    + rewrite (IH us') by (try lia; exact Hs').
      replace (i + 1)%nat with (S i) by lia. rewrite sub_snoc by lia. rewrite Ea, <- !app_assoc. reflexivity.
    + rewrite (IH us') by (try lia; exact Hs'). rewrite sub_nil by lia.
      rewrite flush_eq, <- !app_assoc. reflexivity.
Qed.

(** The loop always finishes, and equals the map over the decomposition. *)
Lemma appendEscapedBytes_spec dst b o us : bytes_ok b -> segments b us ->
  has (o_flags o) noStringEscaping = false ->
  appendEscapedBytes_opt dst b o =
  Some (dst ++ flat_map (esc_seg (has (o_flags o) noUTF8Coercion) (has (o_flags o) noHTMLEscaping)) us).
Proof.
  intros Hok Hs Hn. unfold appendEscapedBytes_opt. rewrite Hn.
  rewrite (esc_loop_spec _ _ b us) with (us := us); auto; try lia.
Qed.

Lemma appendEscapedBytes_total dst b o : bytes_ok b ->
  appendEscapedBytes_opt dst b o = Some (appendEscapedBytes dst b o).
Proof.
  intros Hok. unfold appendEscapedBytes. destruct (segments_total b Hok) as [us Hus].
  destruct (has (o_flags o) noStringEscaping) eqn:E.
  - unfold appendEscapedBytes_opt. rewrite E. reflexivity.
  - rewrite (appendEscapedBytes_spec dst b o us) by assumption. reflexivity.
Qed.

(** The escaped form alone. *)
Definition escaped (o : encOpts) (b : bytes) : bytes := appendEscapedBytes [] b o.

Lemma appendEscapedBytes_app dst b o : bytes_ok b ->
  appendEscapedBytes dst b o = dst ++ escaped o b.
Proof.
  intros Hok. unfold escaped. destruct (segments_total b Hok) as [us Hus].
  destruct (has (o_flags o) noStringEscaping) eqn:E.
  - unfold appendEscapedBytes, appendEscapedBytes_opt. rewrite E. reflexivity.
  - unfold appendEscapedBytes. rewrite !(appendEscapedBytes_spec _ b o us) by assumption. reflexivity.
Qed.

Lemma escaped_segments o b us : bytes_ok b -> segments b us ->
  has (o_flags o) noStringEscaping = false ->
  escaped o b = flat_map (esc_seg (has (o_flags o) noUTF8Coercion) (has (o_flags o) noHTMLEscaping)) us.
Proof.
  intros. unfold escaped, appendEscapedBytes. rewrite (appendEscapedBytes_spec [] b o us) by assumption. reflexivity.
Qed.

(** ** Reading the output back *)

(** The code units an element stands for. *)
Definition seg_units (nc : bool) (u : Z + Z) : list cu :=
  match u with
  | inl r => utf16 r
  | inr b => if nc then [Raw b] else [U16 0xFFFD]
  end.

Lemma hexval_hex_at i : 0 <= i < 16 -> hexval (hex_at i) = Some i.
Proof.
  intros H.
  assert (K : forallb (fun i => match hexval (hex_at i) with Some x => x =? i | None => false end)
            (map Z.of_nat (seq 0 16)) = true) by (vm_compute; reflexivity).
  rewrite forallb_forall in K. specialize (K i).
  destruct (hexval (hex_at i)) as [x|].
  - f_equal. apply Z.eqb_eq, K. apply in_map_iff. exists (Z.to_nat i). split; [lia | apply in_seq; lia].
  - discriminate K. apply in_map_iff. exists (Z.to_nat i). split; [lia | apply in_seq; lia].
Qed.

Lemma land15 c : 0 <= c -> Z.land c 15 = c mod 16.
Proof. intros. change 15 with (Z.ones 4). rewrite Z.land_ones by lia. reflexivity. Qed.

Lemma shiftr4 c : Z.shiftr c 4 = c / 16.
Proof. rewrite Z.shiftr_div_pow2 by lia. reflexivity. Qed.

Lemma esc_ascii_jchars lax c us s : 0 <= c < 0x80 -> jchars lax us s -> jchars lax (U16 c :: us) (esc_ascii c ++ s).
Proof.
  intros Hc H. unfold esc_ascii.
  destruct ((c =? 34) || (c =? 92)) eqn:E1.
  { assert (c = 34 \/ c = 92) as [->| ->] by lia; cbn [app]; apply jc_esc2; auto. }
  destruct (c =? 10) eqn:E2; [replace c with 10 by lia; cbn [app]; apply jc_esc2; auto|].
  destruct (c =? 13) eqn:E3; [replace c with 13 by lia; cbn [app]; apply jc_esc2; auto|].
  destruct (c =? 9) eqn:E4; [replace c with 9 by lia; cbn [app]; apply jc_esc2; auto|].
  rewrite land15, shiftr4 by lia.
  replace (U16 c) with (U16 (0 * 4096 + 0 * 256 + (c / 16) * 16 + c mod 16)) by (f_equal; lia).
  cbn [app l_u00]. apply jc_hex; auto; apply hexval_hex_at; lia.
Qed.

Lemma esc_202_jchars lax r us s : r = 0x2028 \/ r = 0x2029 -> jchars lax us s ->
  jchars lax (U16 r :: us) ((l_u202 ++ [hex_at (Z.land r 15)]) ++ s).
Proof.
  intros [->| ->] H.
  - change (U16 0x2028) with (U16 (2 * 4096 + 0 * 256 + 2 * 16 + 8)). apply jc_hex; auto.
  - change (U16 0x2029) with (U16 (2 * 4096 + 0 * 256 + 2 * 16 + 9)). apply jc_hex; auto.
Qed.

(** The longest prefix of bytes >= 0x80. *)
Fixpoint hi_prefix (s : bytes) : bytes :=
  match s with
  | b :: s' => if 0x80 <=? b then b :: hi_prefix s' else []
  | [] => []
  end.

Lemma hi_prefix_app h s : Forall (fun b => 0x80 <= b < 256) h -> hi_prefix (h ++ s) = h ++ hi_prefix s.
Proof.
  induction 1 as [|b h Hb H IH]; [reflexivity|]. cbn [app hi_prefix].
  replace (0x80 <=? b) with true by lia. rewrite IH. reflexivity.
Qed.

Lemma hi_prefix_split s : exists t, s = hi_prefix s ++ t.
Proof.
  induction s as [|b s [t IH]]; [exists []; reflexivity|]. cbn [hi_prefix].
  destruct (0x80 <=? b); [exists t; simpl; congruence | exists (b :: s); reflexivity].
Qed.

(** Whether an encoding starts here depends only on the high bytes. *)
Lemma no_rune_hi b s1 s2 : 0x80 <= b -> hi_prefix s1 = hi_prefix s2 -> no_rune (b :: s1) -> no_rune (b :: s2).
Proof.
  intros Hb Hh H r rest Hr E.
  assert (Hr80 : 0x80 <= r).
  { destruct (Z_lt_dec r 0x80); [|lia]. rewrite utf8_ascii in E by (unfold scalar in Hr; lia).
    injection E as -> _. lia. }
  assert (Hhi := utf8_high r Hr Hr80).
  assert (E2 : hi_prefix (b :: s2) = utf8 r ++ hi_prefix rest) by (rewrite E; apply hi_prefix_app, Hhi).
  assert (E1 : hi_prefix (b :: s1) = utf8 r ++ hi_prefix rest).
  { rewrite <- E2. cbn [hi_prefix]. rewrite Hh. reflexivity. }
  destruct (hi_prefix_split (b :: s1)) as [t Ht]. rewrite E1, <- app_assoc in Ht.
  eapply H; eauto.
Qed.

Lemma esc_ascii_head c : 0 <= c < 0x80 -> exists t, esc_ascii c = 92 :: t.
Proof.
  intros. unfold esc_ascii.
  destruct ((c =? 34) || (c =? 92)); [eexists; reflexivity|].
  destruct (c =? 10); [eexists; reflexivity|].
  destruct (c =? 13); [eexists; reflexivity|].
  destruct (c =? 9); [eexists; reflexivity|]. eexists; reflexivity.
Qed.

Lemma escaped_hi_prefix ne s us : bytes_ok s -> segments s us ->
  hi_prefix (flat_map (esc_seg true ne) us) = hi_prefix s.
Proof.
  intros Hok H. induction H as [|r s us Hr H IH|b s us Hn H IH]; [reflexivity| |].
  - assert (Hok' : bytes_ok s) by (apply Forall_app in Hok; tauto).
    cbn [flat_map esc_seg]. destruct (r <? 0x80) eqn:E.
    + assert (0 <= r < 0x80) by (unfold scalar in Hr; lia).
      rewrite utf8_ascii by assumption. cbn [app hi_prefix]. replace (0x80 <=? r) with false by lia.
      destruct (plain ne r).
      * cbn [app hi_prefix]. replace (0x80 <=? r) with false by lia. reflexivity.
      * destruct (esc_ascii_head r) as [t ->]; [assumption|]. reflexivity.
    + assert (Hhi := utf8_high r Hr ltac:(lia)).
      rewrite !hi_prefix_app by assumption. rewrite IH by assumption. reflexivity.
  - inversion Hok as [|? ? Hb Hok']; subst. cbn [flat_map esc_seg app hi_prefix].
    rewrite IH by assumption. reflexivity.
Qed.

Lemma utf16_bmp r : r < 0x10000 -> utf16 r = [U16 r].
Proof. unfold utf16. intros. replace (r <? 0x10000) with true by lia. reflexivity. Qed.

Lemma escaped_jchars nc ne s us : bytes_ok s -> segments s us ->
  jchars nc (flat_map (seg_units nc) us) (flat_map (esc_seg nc ne) us).
Proof.
  intros Hok H. induction H as [|r s us Hr H IH|b s us Hn H IH]; [constructor| |].
  - assert (Hok' : bytes_ok s) by (apply Forall_app in Hok; tauto). specialize (IH Hok').
    cbn [flat_map esc_seg seg_units]. destruct (r <? 0x80) eqn:E.
    + assert (Hra : 0 <= r < 0x80) by (unfold scalar in Hr; lia).
      destruct (plain ne r) eqn:Ep.
      * rewrite <- (utf8_ascii r) by assumption.
        unfold plain in Ep. apply jc_rune; auto; lia.
      * rewrite utf16_bmp by lia. cbn [app]. apply esc_ascii_jchars; assumption.
    + destruct nc.
      * apply jc_rune; auto; lia.
      * destruct ((r =? 0x2028) || (r =? 0x2029)) eqn:E2.
        -- rewrite utf16_bmp by lia. cbn [app]. apply esc_202_jchars; [lia | assumption].
        -- apply jc_rune; auto; lia.
  - inversion Hok as [|? ? Hb Hok']; subst. specialize (IH Hok').
    cbn [flat_map esc_seg seg_units]. destruct nc.
    + cbn [app]. apply jc_raw; auto.
      assert (0x80 <= b) by (eapply no_rune_high; eauto; unfold is_byte in Hb; lia).
      apply (no_rune_hi b s); auto. symmetry. apply escaped_hi_prefix; assumption.
    + cbn [app]. change (U16 0xFFFD) with (U16 (15 * 4096 + 15 * 256 + 15 * 16 + 13)).
      apply (jc_hex false 102 102 102 100 15 15 15 13); auto.
Qed.

(** ** Valid UTF-8 and raw characters in the output *)

Lemma esc_ascii_low c : 0 <= c < 0x80 -> Forall (fun b => 32 <= b < 0x80 /\ b <> 60 /\ b <> 62 /\ b <> 38) (esc_ascii c).
Proof.
  intros H.
  assert (K : forallb (fun c => forallb (fun b => (32 <=? b) && (b <? 0x80) && negb (b =? 60) && negb (b =? 62) && negb (b =? 38)) (esc_ascii c))
            (map Z.of_nat (seq 0 128)) = true) by (vm_compute; reflexivity).
  rewrite forallb_forall in K. specialize (K c).
  assert (I : In c (map Z.of_nat (seq 0 128))).
  { apply in_map_iff. exists (Z.to_nat c). split; [lia | apply in_seq; lia]. }
  specialize (K I). rewrite forallb_forall in K. apply Forall_forall. intros b Hb. specialize (K b Hb). lia.
Qed.

(** A scalar the encoder may write: no control, and, unless [ne], no HTML
    character; unless [nc], no separator. *)
Definition out_rune (nc ne : bool) (r : Z) : Prop :=
  scalar r /\ 0x20 <= r /\ (ne = false -> r <> 60 /\ r <> 62 /\ r <> 38) /\
  (nc = false -> r <> 0x2028 /\ r <> 0x2029).

Lemma ascii_out_runes nc ne l : Forall (fun b => 32 <= b < 0x80 /\ b <> 60 /\ b <> 62 /\ b <> 38) l ->
  utf8_string l l /\ Forall (out_rune nc ne) l.
Proof.
  induction 1 as [|b l Hb H [IH1 IH2]]; [split; constructor|]. split.
  - change (b :: l) with ([b] ++ l) at 1. rewrite <- (utf8_ascii b) by lia.
    constructor; [unfold scalar; lia | exact IH1].
  - constructor; [|exact IH2]. unfold out_rune, scalar. repeat split; intros; lia.
Qed.

Lemma utf8_string_single r : scalar r -> utf8_string (utf8 r) [r].
Proof. intros. rewrite <- (app_nil_r (utf8 r)). constructor; [assumption | constructor]. Qed.

Lemma escaped_runes ne s us : bytes_ok s -> segments s us ->
  exists rs, utf8_string (flat_map (esc_seg false ne) us) rs /\ Forall (out_rune false ne) rs.
Proof.
  intros Hok H. induction H as [|r s us Hr H IH|b s us Hn H IH].
  - exists []. split; constructor.
  - assert (Hok' : bytes_ok s) by (apply Forall_app in Hok; tauto).
    destruct (IH Hok') as (rs & IH1 & IH2). cbn [flat_map esc_seg].
    assert (Hlift : forall x xs, utf8_string x xs -> Forall (out_rune false ne) xs ->
      exists rs, utf8_string (x ++ flat_map (esc_seg false ne) us) rs /\ Forall (out_rune false ne) rs).
    { intros x xs H1 H2. exists (xs ++ rs). split; [apply utf8_string_app; assumption | apply Forall_app; auto]. }
    destruct (r <? 0x80) eqn:E.
    + assert (Hra : 0 <= r < 0x80) by (unfold scalar in Hr; lia).
      destruct (plain ne r) eqn:Ep.
      * apply (Hlift [r] [r]).
        -- assert (U := utf8_string_single r Hr). rewrite utf8_ascii in U by assumption. exact U.
        -- constructor; [|constructor]. unfold plain in Ep. unfold out_rune. split; [assumption|]. split; [lia|].
           split; [intros ->; cbn [orb] in Ep; lia | intros; lia].
      * destruct (ascii_out_runes false ne (esc_ascii r)) as [A B]; [apply esc_ascii_low, Hra|]. eapply Hlift; eauto.
    + destruct ((r =? 0x2028) || (r =? 0x2029)) eqn:E2.
      * destruct (ascii_out_runes false ne (l_u202 ++ [hex_at (Z.land r 15)])) as [A B]; [|eapply Hlift; eauto].
        assert (r = 0x2028 \/ r = 0x2029) as [->| ->] by lia; vm_compute; repeat constructor; discriminate.
      * apply (Hlift (utf8 r) [r]).
        -- apply utf8_string_single, Hr.
        -- constructor; [|constructor]. unfold out_rune. split; [assumption|]. split; [lia|]. split; intros; lia.
  - inversion Hok as [|? ? Hb Hok']; subst. destruct (IH Hok') as (rs & IH1 & IH2).
    destruct (ascii_out_runes false ne l_ufffd) as [A B]; [vm_compute; repeat constructor; discriminate|].
    exists (l_ufffd ++ rs). cbn [flat_map esc_seg]. split; [apply utf8_string_app; assumption | apply Forall_app; auto].
Qed.

(** UTF-8 is self-synchronising: an encoding that occurs in a valid string is
    one of its characters. *)
Lemma utf8_head r : scalar r -> exists b t, utf8 r = b :: t /\ (b < 0x80 \/ 0xC0 <= b) /\ Forall (fun x => 0x80 <= x < 0xC0) t.
Proof.
  unfold scalar, utf8. intros H.
  destruct (r <? 0x80) eqn:E1; [exists r, []; repeat split; auto; lia|].
  destruct (r <? 0x800) eqn:E2; [eexists; eexists; split; [reflexivity|]; split; [lia | repeat constructor; lia]|].
  destruct (r <? 0x10000) eqn:E3; (eexists; eexists; split; [reflexivity|]; split; [lia | repeat constructor; lia]).
Qed.

Lemma app_split_le {A} (a b c d : list A) : a ++ b = c ++ d -> (length a <= length c)%nat ->
  exists e, c = a ++ e /\ b = e ++ d.
Proof.
  revert c; induction a as [|x a IH]; intros c E L; simpl in *.
  - exists c. auto.
  - destruct c as [|y c]; simpl in *; [lia|]. injection E as -> E.
    destruct (IH c E ltac:(lia)) as (e & -> & ->). exists e. auto.
Qed.

Lemma utf8_sync s rs r : utf8_string s rs -> scalar r -> infix (utf8 r) s -> In r rs.
Proof.
  intros H Hr. induction H as [|r0 s rs Hr0 H IH]; intros (l & t & E).
  - destruct l; [|discriminate]. destruct (utf8 r) eqn:E'; [exfalso; eapply utf8_nonempty; eauto | discriminate].
  - destruct l as [|x l].
    + simpl in E. apply utf8_inj_prefix in E; auto. left; tauto.
    + destruct (le_lt_dec (length (utf8 r0)) (length (x :: l))) as [Hle|Hgt].
      * destruct (app_split_le _ _ _ _ E Hle) as (e & E1 & E2).
        right. apply IH. exists e, t. exact E2.
      * exfalso. symmetry in E. destruct (app_split_le _ _ _ _ E) as (e & E1 & E2); [lia|].
        destruct (utf8_head r0 Hr0) as (b0 & t0 & Eb0 & _ & Ht0).
        rewrite Eb0 in E1. injection E1 as -> E1.
        destruct e as [|y e].
        { rewrite E1, app_nil_r in Eb0. rewrite Eb0 in Hgt. simpl in *. lia. }
        destruct (utf8_head r Hr) as (b1 & t1 & Eb1 & Hb1 & _). rewrite Eb1 in E2. injection E2 as -> _.
        rewrite E1 in Ht0. apply Forall_app in Ht0. destruct Ht0 as [_ Ht0]. inversion Ht0; subst. lia.
Qed.

(** ** UTF-16 *)
Definition hi_sur (z : Z) : bool := (0xD800 <=? z) && (z <? 0xDC00).

Lemma utf16_inj rs1 rs2 : Forall scalar rs1 -> Forall scalar rs2 ->
  flat_map utf16 rs1 = flat_map utf16 rs2 -> rs1 = rs2.
Proof.
  intros H1; revert rs2. induction H1 as [|r1 rs1 Hr1 H1 IH]; intros rs2 H2 E.
  - destruct H2 as [|r2 rs2 Hr2 H2]; [reflexivity|]. exfalso. simpl in E. unfold utf16 in E.
    destruct (r2 <? 0x10000); discriminate.
  - destruct H2 as [|r2 rs2 Hr2 H2].
    + exfalso. simpl in E. unfold utf16 in E. destruct (r1 <? 0x10000); discriminate.
    + cbn [flat_map] in E. unfold utf16 at 1 3 in E. unfold scalar in *.
      destruct (r1 <? 0x10000) eqn:E1, (r2 <? 0x10000) eqn:E2; cbn [app] in E.
      * injection E as -> E. f_equal. auto.
      * exfalso. injection E as E _. lia.
      * exfalso. injection E as E _. lia.
      * injection E as Ea Eb E. f_equal; [lia | auto].
Qed.

(** ** A JSON string has one reading *)
Lemma jchars_inv lax us s : jchars lax us s ->
  (us = [] /\ s = []) \/
  (exists r us' s', us = utf16 r ++ us' /\ s = utf8 r ++ s' /\ scalar r /\ 0x20 <= r /\ r <> 34 /\ r <> 92 /\ jchars lax us' s') \/
  (exists c u us' s', us = U16 u :: us' /\ s = 92 :: c :: s' /\ esc2 c = Some u /\ jchars lax us' s') \/
  (exists h1 h2 h3 h4 a b c d us' s', us = U16 (a * 4096 + b * 256 + c * 16 + d) :: us' /\
     s = 92 :: 117 :: h1 :: h2 :: h3 :: h4 :: s' /\
     hexval h1 = Some a /\ hexval h2 = Some b /\ hexval h3 = Some c /\ hexval h4 = Some d /\ jchars lax us' s') \/
  (exists b us' s', us = Raw b :: us' /\ s = b :: s' /\ lax = true /\ is_byte b /\ no_rune (b :: s') /\ jchars lax us' s').
Proof.
  intros H. destruct H.
  - left; auto.
  - right; left. exists r, us, s. auto 10.
  - right; right; left. exists c, u, us, s. auto 10.
  - right; right; right; left. exists h1, h2, h3, h4, a, b, c, d, us, s. auto 10.
  - right; right; right; right. exists b, us, s. auto 10.
Qed.

Lemma utf8_not_backslash r t x : scalar r -> r <> 92 -> utf8 r ++ t = 92 :: x -> False.
Proof.
  intros Hr Hne E. change (92 :: x) with (utf8 92 ++ x) in E.
  apply utf8_inj_prefix in E; auto; [tauto | unfold scalar; lia].
Qed.

Lemma no_rune_not_ascii b x : 0 <= b < 0x80 -> ~ no_rune (b :: x).
Proof.
  intros Hb Hn. apply (Hn b x); [unfold scalar; lia|]. rewrite utf8_ascii by assumption. reflexivity.
Qed.

Lemma utf8_app_nil r t : utf8 r ++ t = [] -> False.
Proof. destruct (utf8 r) eqn:E; [intros _; eapply utf8_nonempty; eauto | discriminate]. Qed.

Lemma jchars_det lax us1 us2 s : jchars lax us1 s -> jchars lax us2 s -> us1 = us2.
Proof.
  intros H1; revert us2.
  induction H1 as [|r us s Hr H20 H34 H92 H1 IH|c u us s Hc H1 IH|h1 h2 h3 h4 a b c d us s Ha Hb Hc Hd H1 IH|b us s Hl Hb Hn H1 IH];
    intros us2 H2; apply jchars_inv in H2;
    destruct H2 as [[E2 E]|[(r' & us' & s' & E2 & E & Hr' & H20' & H34' & H92' & H2)|
      [(c' & u' & us' & s' & E2 & E & Hc' & H2)|
      [(h1' & h2' & h3' & h4' & a' & b' & c' & d' & us' & s' & E2 & E & Ha' & Hb' & Hc' & Hd' & H2)|
       (b' & us' & s' & E2 & E & Hl' & Hb' & Hn' & H2)]]]]; subst us2;
    try reflexivity; try discriminate E.
  - symmetry in E. exfalso; eapply utf8_app_nil; eauto.
  - exfalso; eapply utf8_app_nil; eauto.
  - apply utf8_inj_prefix in E; auto. destruct E as [-> ->]. f_equal; auto.
  - exfalso; eapply utf8_not_backslash; eauto.
  - exfalso; eapply utf8_not_backslash; eauto.
  - exfalso. rewrite <- E in Hn'. eapply Hn'; eauto.
  - symmetry in E. exfalso; eapply utf8_not_backslash; eauto.
  - injection E as <- <-. rewrite Hc in Hc'. injection Hc' as ->. f_equal; auto.
  - injection E as -> _. discriminate Hc.
  - injection E as <- <-. exfalso. eapply no_rune_not_ascii; [|exact Hn']; lia.
  - symmetry in E. exfalso; eapply utf8_not_backslash; eauto.
  - injection E as <- _. discriminate Hc'.
  - injection E as <- <- <- <- <-.
    rewrite Ha in Ha'. rewrite Hb in Hb'. rewrite Hc in Hc'. rewrite Hd in Hd'.
    injection Ha' as ->. injection Hb' as ->. injection Hc' as ->. injection Hd' as ->. f_equal; auto.
  - injection E as <- <-. exfalso. eapply no_rune_not_ascii; [|exact Hn']; lia.
  - exfalso. rewrite E in Hn. eapply Hn; eauto.
  - injection E as -> ->. exfalso. eapply no_rune_not_ascii; [|exact Hn]; lia.
  - injection E as -> ->. exfalso. eapply no_rune_not_ascii; [|exact Hn]; lia.
  - injection E as <- <-. f_equal; auto.
Qed.
