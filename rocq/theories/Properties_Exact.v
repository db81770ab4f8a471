(** Where the claims that are false in general hold: exact conditions. *)
From Coq Require Import Permutation.
From Verif Require Import Base Utf8 JsonSpec OptionsModel EscapeModel EscapeProof NumberProof JsonParse CompactModel CompactProof IntModel TypesModel TypesFacts TagsModel TagsProof CalendarSpec TimeModel TimeProof FloatModel FloatProof LeafModel LeafProof
  MemModel FieldsModel FieldsProof InstrModel ExecModel ValueModel ExecMono ExecLeaf ExecProof HostFacts VencFacts MarshalThm DocSpec EntriesFacts DocLeaf PartFacts DocProof SafeProof ApiFacts PartsThm ShapeThm CallFacts MethodsThm
  StrictParse DurationProof TimeTotal TimeExact IntProof ExampleHost ExampleVals ExampleConst ExampleRead Properties_Options Properties_Strings Properties_Numbers Properties_Members Properties_Maps Properties_Fields Properties_Time Properties_Api Properties_Marshalers.

(** ** Texts written between quotation marks without escaping *)

Lemma sg_ascii c s segs : 0 <= c < 128 -> segments s segs -> segments (c :: s) (inl c :: segs).
Proof. intros Hc Hs. assert (X := sg_rune c s segs ltac:(unfold scalar; lia) Hs). rewrite utf8_ascii in X by lia. exact X. Qed.

Lemma plain_text_cons r s : scalar r -> 0x20 <= r -> r <> 34 -> r <> 92 -> plain_text s -> plain_text (utf8 r ++ s).
Proof. intros A B C D (rs & U & F). exists (r :: rs). split; constructor; auto. Qed.

(** An escape stands for fewer code units than it has characters. *)
Lemma unescaped_chars lax us s : jchars lax us s -> exists segs, segments s segs /\ (length us <= length (flat_map coerced_units segs))%nat /\ (us = flat_map coerced_units segs -> plain_text s).
Proof.
  assert (U1 : forall c, 0 <= c < 128 -> utf16 c = [U16 c]) by (intros c Hc; unfold utf16; replace (c <? 0x10000) with true by lia; reflexivity).
  induction 1 as [|r us s Hr R1 R2 R3 Hj (segs & S & L & E)|c u us s He Hj (segs & S & L & E)|h1 h2 h3 h4 a b c d us s A1 A2 A3 A4 Hj (segs & S & L & E)|b us s Lx Bb Nr Hj (segs & S & L & E)].
  - exists []. split; [constructor|]. split; [cbn; lia|]. intros _. exists []. split; constructor.
  - exists (inl r :: segs). split; [constructor; assumption|]. cbn [flat_map coerced_units]. split; [rewrite !app_length; lia|]. intros X. apply app_inv_head in X. apply plain_text_cons; auto.
  - apply jchars_low_escape in He. exists (inl 92 :: inl c :: segs). split; [repeat apply sg_ascii; auto; lia|]. cbn [flat_map coerced_units]. rewrite !U1 by lia. cbn [app length].
    split; [lia|]. intros X. apply (f_equal (@length _)) in X. cbn [length] in X. lia.
  - apply hexval_ascii in A1, A2, A3, A4. exists (inl 92 :: inl 117 :: inl h1 :: inl h2 :: inl h3 :: inl h4 :: segs). split; [repeat apply sg_ascii; auto; lia|]. cbn [flat_map coerced_units]. rewrite !U1 by lia. cbn [app length].
    split; [lia|]. intros X. apply (f_equal (@length _)) in X. cbn [length] in X. lia.
  - exists (inr b :: segs). split; [constructor; assumption|]. cbn [flat_map coerced_units app length]. split; [lia|]. intros X. discriminate X.
Qed.

Lemma unescaped_string lax b us : string_units b us -> (json no_ws lax (JStr us) (34 :: b ++ [34]) <-> plain_text b).
Proof.
  intros (segs & S & ->). split.
  - intros J. assert (X : exists s', jchars lax (flat_map coerced_units segs) s' /\ 34 :: s' ++ [34] = 34 :: b ++ [34]) by (inversion J; eauto).
    destruct X as (s' & Hj & E2). apply (f_equal (@tl Z)) in E2. cbn [tl] in E2. apply app_inj_tail in E2. destruct E2 as [-> _].
    destruct (unescaped_chars _ _ _ Hj) as (segs' & S' & _ & E). rewrite <- (segments_det _ _ _ S S') in E. apply E. reflexivity.
  - intros P. destruct (plain_string b P) as (us & (segs' & S' & ->) & J). rewrite <- (segments_det _ _ _ S S') in J. destruct lax; [apply to_lax|]; exact J.
Qed.

(** ** C38: the text of MarshalText is right exactly when it needs no escape *)
Theorem C38_exact H vcall m t w v opts o out t' ca q v' td x r : host_ok H vcall -> sort_ok H -> call H m t w v opts o -> marshal_returns H m (Some (t, w)) opts (MOk out) ->
  inner H o (t, is_ptr H t, false, v) (t', ca, q, v') -> native t' = false -> first_method H t' ca MText -> receiver H t' (by_address H t' MText) v' td x -> vcall MText td x None = inl r ->
  exists b us, bytes_of H vcall o (t', ca, q, v') b /\ infix b out /\ string_units r us /\ (json no_ws true (JStr us) b <-> plain_text r).
Proof.
  intros OK SO C R Hi Hn F Rc Hc. destruct (call_inner H vcall OK m t w v opts o C out _ SO R Hi) as (b & Hb & Hf).
  assert (Hok : bytes_ok r) by (eapply (ok_bytes _ _ OK); eauto).
  destruct (string_units_total r Hok) as [us Hu]. exists b, us. split; [exact Hb|]. split; [exact Hf|]. split; [exact Hu|].
  destruct (method_bytes H vcall o t' ca q v' MText b OK Hn F Hb) as [(-> & A1 & A2 & _)|(td' & x' & r' & A1 & A2 & A3)].
  - rewrite A1 in Rc. destruct (nil_no_receiver H _ _ _ A2 Rc).
  - destruct (receiver_det H _ _ _ _ _ _ _ Rc A1) as [<- <-]. cbn [ctx_of presented] in *. rewrite Hc in A2. injection A2 as <-. subst b. apply (unescaped_string true r us Hu).
Qed.

(** ** C45: so is the text of a custom time layout *)
Theorem C45_exact H vcall m w g opts o y : host_ok H vcall -> holds H m TTime w (VTime g) -> call_opts opts = Some o -> custom_layout o -> local_year g y -> 0 <= y <= 9999 ->
  bytes_ok (h_fmt H g (o_timeLayout o)) ->
  exists out us, (forall r, marshal_returns H m (Some (TTime, w)) opts r <-> r = MOk out) /\ string_units (h_fmt H g (o_timeLayout o)) us /\ (cjson (JStr us) out <-> plain_text (h_fmt H g (o_timeLayout o))).
Proof.
  intros OK Hr Ho Hl Hy Hb Hk. apply local_year_iff in Hy as ->. destruct (string_units_total _ Hk) as [us Hu]. eexists _, us. split; [|split; [exact Hu | apply (unescaped_string false _ us Hu)]].
  intros r. apply (marshal_iff H vcall OK m TTime w _ opts o _ None r Hr Ho). apply time_encodes; [exact OK | apply layout_encodes; assumption].
Qed.

(** ** C39: the string option on a string is right exactly when it needs no escape *)
Definition unit_plain (u : cu) : Prop := match u with U16 c => 0x20 <= c /\ c <> 34 /\ c <> 92 | Raw _ => False end.

Lemma utf16_plain r : scalar r -> (0x20 <= r /\ r <> 34 /\ r <> 92) <-> Forall unit_plain (utf16 r).
Proof.
  intros Hr. unfold utf16. destruct (r <? 0x10000) eqn:E; [split; [intros X; repeat constructor; apply X | intros F; inversion F; assumption]|].
  split; [intros _; repeat constructor; cbn; lia | intros _; lia].
Qed.

Lemma segments_scalar s segs : segments s segs -> Forall (fun u => match u with inl r => scalar r | inr _ => True end) segs.
Proof. induction 1; constructor; auto. Qed.

Lemma quotable_units s us : string_units s us -> (quotable s <-> Forall unit_plain us).
Proof.
  intros (segs & S & ->). assert (Sc := segments_scalar _ _ S). split.
  - intros (segs' & S' & F). rewrite (segments_det _ _ _ S' S) in F. clear - F Sc. induction segs as [|[r|b] segs IH]; cbn [flat_map coerced_units]; [constructor| |]; inversion F; inversion Sc; subst; apply Forall_app; split; auto.
    + apply utf16_plain; auto.
    + repeat constructor; lia.
  - intros F. exists segs. split; [exact S|]. clear S. induction segs as [|[r|b] segs IH]; cbn [flat_map coerced_units] in F; [constructor| |]; apply Forall_app in F; destruct F as [F1 F2]; inversion Sc; subst; constructor; auto.
    apply utf16_plain; auto.
Qed.

Lemma json_str_inv W lax us b : json W lax (JStr us) b -> exists s, b = 34 :: s ++ [34] /\ jchars lax us s.
Proof. intros J. inversion J; eauto. Qed.

Lemma quoted_decodes o s us : esc_on o -> bytes_ok s -> string_units s us -> json no_ws true (JStr (U16 34 :: us ++ [U16 34])) (encode_quoted_string [] s o).
Proof.
  intros ON Hb Us. unfold encode_quoted_string. rewrite appendEscapedBytes_app by exact Hb. cbn [app].
  change (l_qbq ++ escaped o s) with (34 :: ([92; 34] ++ escaped o s)). rewrite <- app_comm_cons, <- app_assoc.
  change l_bqq with ([92; 34] ++ [34]). rewrite 2!app_assoc. apply to_lax, j_str. rewrite <- app_assoc.
  change (U16 34 :: us ++ [U16 34]) with ([U16 34] ++ us ++ [U16 34]).
  assert (Jq : jchars false [U16 34] [92; 34]) by (apply (jc_esc2 false 34 34 [] []); [reflexivity | constructor]).
  apply jchars_app; [exact Jq | | reflexivity]. apply jchars_app; [|exact Jq | reflexivity]. apply escaped_string_units; auto.
Qed.

Lemma strict_runes us s : jchars false us s -> exists rs, utf8_string s rs.
Proof.
  assert (A : forall c s rs, 0 <= c < 128 -> utf8_string s rs -> utf8_string (c :: s) (c :: rs)).
  { intros c t rs Hc Hs. assert (X := us_cons c t rs ltac:(unfold scalar; lia) Hs). rewrite utf8_ascii in X by lia. exact X. }
  intros Hj. remember false as lax eqn:El. induction Hj as [|r us s Hr _ _ _ _ IH|c u us s He _ IH|h1 h2 h3 h4 a b c d us s A1 A2 A3 A4 _ IH|b us s L]; subst; [| | | |discriminate L]; try destruct IH as [rs U].
  - exists []. constructor.
  - exists (r :: rs). constructor; assumption.
  - apply jchars_low_escape in He. exists (92 :: c :: rs). repeat apply A; auto; lia.
  - apply hexval_ascii in A1, A2, A3, A4. exists (92 :: 117 :: h1 :: h2 :: h3 :: h4 :: rs). repeat apply A; auto; lia.
Qed.

Lemma doubly_string H vcall o t ca s : esc_on o -> DocSpec.plain H t ca -> under (h_env H) t = TString -> bytes_ok s ->
  doubly_encoded H vcall o t ca (VStr s) (encode_quoted_string [] s o) -> quotable s.
Proof.
  intros ON Hp Hu Hb (us & t' & j & J1 & U1 & J2 & D).
  assert (exists us_s, j = JStr us_s /\ string_units s us_s) as (us_s & -> & Us).
  { destruct Hp as [Hn Hm]. inversion D; subst; try congruence; try discriminate Hn; eauto. }
  assert (Q := quoted_decodes o s us_s ON Hb Us).
  destruct (json_str_inv _ _ _ _ J1) as (x1 & E1 & C1). destruct (json_str_inv _ _ _ _ Q) as (x2 & E2 & C2). rewrite E1 in E2. injection E2 as E2. apply app_inj_tail in E2. destruct E2 as [<- _].
  assert (E := jchars_det _ _ _ _ C1 C2). subst us. clear J1 Q C1 C2 E1.
  destruct (json_str_inv _ _ _ _ J2) as (body & -> & C3). destruct (strict_runes _ _ C3) as [rs Ur].
  assert (Ub := string_units_valid body rs Ur).
  assert (Ut : string_units (34 :: body ++ [34]) (flat_map utf16 (34 :: rs ++ [34]))).
  { apply string_units_valid. change (34 :: body ++ [34]) with (utf8 34 ++ (body ++ [34])). constructor; [unfold scalar; lia|].
    apply utf8_string_app; [exact Ur|]. change [34] with (utf8 34 ++ []) at 1. constructor; [unfold scalar; lia | constructor]. }
  assert (E := string_units_det _ _ _ U1 Ut). cbn [flat_map] in E. rewrite flat_map_app in E. cbn in E. injection E as E. apply app_inj_tail in E. destruct E as [E _]. rewrite <- E in Ub. clear Ut U1.
  apply (quotable_units s us_s Us). apply (quotable_units body us_s Ub).
  assert (P : plain_text body) by (apply (unescaped_string false body us_s Ub); exact J2).
  destruct P as (rs' & U' & F). exists (map inl rs'). split; [apply valid_utf8_segments, U'|]. rewrite Forall_map. exact F.
Qed.

Theorem C39_exact H vcall m t w v opts o out t' ca s : host_ok H vcall -> shortest_ok (h_shortest H) -> sort_ok H -> call H m t w v opts o -> esc_on o ->
  marshal_returns H m (Some (t, w)) opts (MOk out) -> inner H o (t, is_ptr H t, false, v) (t', ca, true, VStr s) -> DocSpec.plain H t' ca -> under (h_env H) t' = TString ->
  exists b, bytes_of H vcall o (t', ca, true, VStr s) b /\ infix b out /\ (doubly_encoded H vcall o t' ca (VStr s) b <-> quotable s).
Proof.
  intros OK SH SO C ON R Hi Hp Hu. destruct (call_inner H vcall OK m t w v opts o C out _ SO R Hi) as (b & Hb & Hf). exists b. split; [exact Hb|]. split; [exact Hf|].
  assert (Hh := part_held H vcall OK o m _ _ (call_held H vcall OK m t w v opts o C) (inner_part _ _ _ _ Hi)). destruct Hh as (Ht & l & Hl). destruct (inv_str H m _ _ _ Hl) as (_ & _ & Hbo).
  assert (Eb : b = encode_quoted_string [] s o).
  { destruct Hp as [Hn Hm]. apply (bytes_of_det H vcall _ _ _ _ Hb). exists 1%nat. cbn [venc]. rewrite Hn, Hm. unfold vkind. rewrite Hu. reflexivity. }
  split.
  - intros D. subst b. eapply doubly_string; eauto.
  - intros Q. assert (Bt : isBasicType (h_env H) t' = true) by (unfold isBasicType, isString; rewrite Hu, orb_true_r; reflexivity).
    destruct (C39_string_option_partial H vcall OK SH SO m t w v opts o out t' ca (VStr s) C ON R Hi (proj2 Hp) Bt) as (b' & Hb' & _ & D).
    + destruct Hp as [Hn _]. split; [intros ->; discriminate Hn|]. split; [intros ->; discriminate Hn|]. intros s0 [= <-]. exact Q.
    + rewrite (bytes_of_det H vcall _ _ _ _ Hb Hb'). exact D.
Qed.

(** ** C12: exactly which times of the years 0 to 9999 are encoded right *)
Lemma rata0 m d : 1 <= m <= 12 -> 1 <= d <= month_len 0 m -> -365 <= rata_die 0 m d <= 0 /\ (3 <= m <-> -305 <= rata_die 0 m d) /\ (m = 12 /\ d = 31 <-> rata_die 0 m d = 0).
Proof.
  intros Hm Hd. unfold rata_die. change (days_before_year 0) with (-366).
  assert (C : m = 1 \/ m = 2 \/ m = 3 \/ m = 4 \/ m = 5 \/ m = 6 \/ m = 7 \/ m = 8 \/ m = 9 \/ m = 10 \/ m = 11 \/ m = 12) by lia.
  repeat (destruct C as [-> | C]); [.. | subst m]; 
    match goal with |- context [days_before_month 0 ?k] => let v := eval vm_compute in (days_before_month 0 k) in change (days_before_month 0 k) with v end;
    match type of Hd with context [month_len 0 ?k] => let v := eval vm_compute in (month_len 0 k) in change (month_len 0 k) with v in Hd end; lia.
Qed.

Lemma len_split {A} (a b r s : list A) : length a = length b -> a ++ r = b ++ s -> a = b /\ r = s.
Proof.
  revert b. induction a as [|x a IH]; intros [|y b] L E; try discriminate L; cbn [app] in E; [auto|]. injection E as -> E. injection L as L. destruct (IH b L E) as [-> ->]. auto.
Qed.

Lemma neg_day n s : n < 0 -> 0 <= s < 86400 ->
  - 86400 < Z.rem (n * 86400 + s) 86400 <= 0 /\ (Z.rem (n * 86400 + s) 86400 = 0 -> Z.quot (n * 86400 + s) 86400 = n /\ s = 0).
Proof.
  intros Hn Hs. assert (Qr := Z.quot_rem' (n * 86400 + s) 86400). assert (Rb := Z.rem_bound_abs (n * 86400 + s) 86400 ltac:(lia)).
  assert (Rn := Z.rem_nonpos (n * 86400 + s) 86400 ltac:(lia) ltac:(lia)).
  set (r := Z.rem (n * 86400 + s) 86400) in *. set (q := Z.quot (n * 86400 + s) 86400) in *. clearbody r q. lia.
Qed.

Lemma rdn_defined n s : -365 <= n <= 3652059 -> 0 <= s < 86400 -> rdnToYmd (u32 (Z.quot (n * 86400 + s) 86400)) <> None.
Proof.
  intros Hn Hs. destruct (Z_le_gt_dec 1 n) as [G|G].
  - replace (Z.quot (n * 86400 + s) 86400) with n by (rewrite Z.quot_div_nonneg by lia; lia). rewrite u32_id by lia.
    destruct (rdnToYmd_correct n) as (y & mo & d & -> & _); [lia | discriminate].
  - apply rdn_small. assert (Q := Z.quot_rem' (n * 86400 + s) 86400). destruct (Z_le_gt_dec 0 (n * 86400 + s)) as [P|P].
    + rewrite Z.quot_div_nonneg by lia. lia.
    + assert (B := Z.rem_bound_abs (n * 86400 + s) 86400 ltac:(lia)). lia.
Qed.

Lemma rfc3339_right g nano out y mo d hh mi ss : gtime_ok g -> civil (t_unix g + t_offset g) y mo d hh mi ss -> 0 <= y <= 9999 -> appendRFC3339Time g [] nano = Some out ->
  (rfc3339_of g nano out <-> Z.abs (t_offset g) < 360000 /\ (1 <= y \/ (mo = 12 /\ d = 31) \/ (3 <= mo /\ hh = 0 /\ mi = 0 /\ ss = 0))).
Proof.
  intros Hg Hc Hy Ho. destruct Hc as (n & Hd & H1 & H2 & H3 & HL). change (rata_die 1970 1 1) with 719163 in HL.
  assert (Ydate := is_date_year _ _ _ _ Hd).
  assert (Hyear : time_year g = y).
  { eapply is_year_unique; [apply time_year_correct|]. replace ((t_unix g + t_offset g) / 86400 + 719163) with n by (rewrite HL; lia). exact Ydate. }
  split.
  - intros (s & y' & mo' & d' & hh' & mi' & ss' & -> & D & C').
    assert (Hc : civil (t_unix g + t_offset g) y mo d hh mi ss) by (exists n; repeat (split; [assumption || lia|]); exact HL).
    destruct (civil_unique _ _ _ _ _ _ _ _ _ _ _ _ _ Hc C') as (<- & <- & <- & <- & <- & <-). clear C'.
    destruct D as (a1 & a2 & a3 & a4 & a5 & a6 & a7 & a8 & A1 & A2 & A3 & A4 & A5 & A6 & A7 & A8 & ->).
    assert (Hn : -365 <= n <= 3652059).
    { unfold is_year in Ydate. assert (M1 := dby_mono 0 y ltac:(lia)). assert (M2 := dby_mono (y + 1) 10000 ltac:(lia)).
      change (days_before_year 0) with (-366) in M1. change (days_before_year 10000) with 3652059 in M2. lia. }
    set (sod := hh * 3600 + mi * 60 + ss) in *. assert (Hs : 0 <= sod < 86400) by (unfold sod; lia).
    assert (Hsec : wrap_i 64 (wrap_i 64 (t_unix g + t_offset g) + epoch) = n * 86400 + sod).
    { rewrite HL. unfold wrap_i, epoch. rewrite (Z.mod_small ((n - 719163) * 86400 + hh * 3600 + mi * 60 + ss + 2 ^ (64 - 1))) by lia. unfold sod. rewrite Z.mod_small; lia. }
    assert (Hr : exists y1 m1 d1, rdnToYmd (u32 (Z.quot (n * 86400 + sod) 86400)) = Some (y1, m1, d1)).
    { destruct (rdnToYmd (u32 (Z.quot (n * 86400 + sod) 86400))) as [[[y1 m1] d1]|] eqn:Er; [eauto|]. destruct (rdn_defined n sod Hn Hs Er). }
    destruct Hr as (y1 & m1 & d1 & Er). destruct (rfc3339_shape g [] nano _ y1 m1 d1 (proj1 (proj2 Hg)) Hsec Er) as (sf & Es & Hsf).
    rewrite Ho in Es. replace (head_text y1 m1 d1 (Z.rem (n * 86400 + sod) 86400) ++ sf ++ zone_text (t_offset g) ++ [34]) with ((head_text y1 m1 d1 (Z.rem (n * 86400 + sod) 86400) ++ sf ++ zone_text (t_offset g)) ++ [34]) in Es by (rewrite <- !app_assoc; reflexivity).
    apply (f_equal (fun x => match x with Some l => tl l | None => [] end)) in Es. cbn [app tl] in Es. apply app_inj_tail in Es. destruct Es as [Es _].
    unfold head_text in Es. rewrite <- (app_assoc (dlist 4 y1)) in Es. cbn [app] in Es. rewrite <- (app_assoc (dlist 2 m1)) in Es. cbn [app] in Es. rewrite <- (app_assoc (dlist 2 d1)) in Es. cbn [app] in Es.
    remember (dlist 4 y1) as Y1 eqn:EY. assert (LY : length Y1 = 4%nat) by (rewrite EY; apply dlist_length).
    assert (LM := dlist_length 2 m1). assert (LD := dlist_length 2 d1). generalize dependent (dlist 2 d1). generalize dependent (dlist 2 m1). intros M1 LM D1 Es LD. destruct A1 as (L1 & F1 & V1), A2 as (L2 & _), A3 as (L3 & _), A4 as (L4 & F4 & _), A5 as (L5 & F5 & _), A6 as (L6 & F6 & _).
    apply len_split in Es; [|congruence]. destruct Es as [-> Es]. injection Es as Es.
    apply len_split in Es; [|congruence]. destruct Es as [-> Es]. injection Es as Es.
    apply len_split in Es; [|congruence]. destruct Es as [-> Es]. injection Es as Es.
    destruct a4 as [|u1 [|u2 [|]]]; try discriminate L4. destruct a5 as [|u3 [|u4 [|]]]; try discriminate L5. destruct a6 as [|u5 [|u6 [|]]]; try discriminate L6.
    cbn [app] in Es. injection Es as E1 E2 E3 E4 E5 E6 Es. subst u1 u2 u3 u4 u5 u6.
    assert (Zt : a8 = zone_text (t_offset g)).
    { destruct (zone_head _ _ A8) as (c & tl & Ec & Nc & Nc'), (zone_head _ _ (zone_text_any (t_offset g))) as (c' & tl' & Ec' & Nd & Nd').
      destruct A7 as [|f x P1 P2 P3], Hsf as [|f' x' Q1 Q2 Q3].
      - exact Es.
      - rewrite Ec in Es. cbn [app] in Es. injection Es as X _. congruence.
      - rewrite Ec' in Es. cbn [app] in Es. injection Es as X _. congruence.
      - rewrite Ec, Ec' in Es |- *. cbn [app] in Es. injection Es as Es.
        destruct (digits_split (f ++ [x]) (c :: tl) (f' ++ [x']) (c' :: tl') P1 Q1) as [_ Et]; [intros ? ? [= <- _]; exact Nc | intros ? ? [= <- _]; exact Nd | exact Es | exact Et]. }
    subst a8. assert (Zo := zone_det _ _ _ A8 (zone_text_any (t_offset g))).
    split.
    { set (q := Z.quot (t_offset g) 60) in *. assert (Hq := Z.quot_rem' (t_offset g) 60). assert (Hb := Z.rem_bound_abs (t_offset g) 60 ltac:(lia)). fold q in Hq.
      assert (Hm := Z.mod_pos_bound (Z.abs q) 6000 ltac:(lia)). set (r := Z.abs q mod 6000) in *. clearbody r q. destruct (Z.sgn_spec (t_offset g)) as [[? Sg]|[[? Sg]|[? Sg]]]; rewrite Sg in Zo; lia. }
    destruct (Z_le_gt_dec 1 y) as [G|G]; [left; lia|]. right. assert (Y0 : y = 0) by lia. rewrite Y0 in Hd, V1. clear Hyear. destruct Hd as (D1' & D2 & D3). destruct (rata0 mo d D1' D2) as (R1 & R2 & R3). rewrite <- D3 in *.
    destruct (Z.eq_dec n 0) as [N|N]; [left; apply R3; exact N|]. right.
    destruct (neg_day n sod ltac:(lia) Hs) as (Rb & Rz).
    assert (T0 : Z.rem (n * 86400 + sod) 86400 = 0).
    { apply time_neg; [exact Rb|]. cbv zeta. inversion F4 as [|? ? I1 F4']. inversion F4' as [|? ? I2 _]. inversion F5 as [|? ? I3 F5']. inversion F5' as [|? ? I4 _]. inversion F6 as [|? ? I5 F6']. inversion F6' as [|? ? I6 _]. auto 10. }
    destruct (Rz T0) as [Q0 S0]. rewrite Q0 in Er.
    split; [|clear - H1 H2 H3 S0; unfold sod in S0; lia]. apply R2. destruct (Z_le_gt_dec (-305) n) as [K|K]; [exact K|]. exfalso.
    refine (rdn_year0_early n y1 m1 d1 _ Er _); [clear - K R1; lia|]. rewrite <- dlist4 by (apply (rdn_nonneg _ _ _ _ Er)). congruence.
  - intros [Hz Hcase]. destruct (Z_le_gt_dec 1 y) as [G|G].
    + destruct (rfc3339_correct g [] nano Hg ltac:(lia) Hz) as (s & y' & mo' & d' & hh' & mi' & ss' & Es & A & B). rewrite Ho in Es. injection Es as ->. do 7 eexists. eauto.
    + assert (y = 0) as -> by lia. destruct Hd as (D1 & D2 & D3). destruct (rata0 mo d D1 D2) as (R1 & R2 & R3). rewrite <- D3 in *.
      destruct (rdn_year0 n) as (m' & d' & Er & Hd'); [lia|].
      destruct (rfc3339_date g [] nano n (hh * 3600 + mi * 60 + ss) 0 m' d') as (s & Es & A & B); try assumption; try lia.
      rewrite Ho in Es. injection Es as ->. do 7 eexists. eauto.
Qed.

(** For every time of the years 0 to 9999, the date and offset are right
    exactly when the offset is less than 100 hours and the local time is not
    one of year 0 that appendRFC3339Time mistakes: 31 December is right, so is
    midnight from 1 March on, and nothing else of that year. *)
Theorem C12_exact : forall H vcall m w g opts o nano y mo d hh mi ss, host_ok H vcall -> holds H m TTime w (VTime g) -> call_opts opts = Some o -> rfc3339_layout o nano ->
  civil (t_unix g + t_offset g) y mo d hh mi ss -> 0 <= y <= 9999 ->
  exists out, (forall r, marshal_returns H m (Some (TTime, w)) opts r <-> r = MOk out) /\
    (rfc3339_of g nano out <-> Z.abs (t_offset g) < 360000 /\ (1 <= y \/ (mo = 12 /\ d = 31) \/ (3 <= mo /\ hh = 0 /\ mi = 0 /\ ss = 0))).
Proof.
  intros H vcall m w g opts o nano y mo d hh mi ss OK Hr Ho Hl Hc Hy. assert (Hg := holds_time _ _ _ _ _ OK Hr).
  assert (Hyear : time_year g = y).
  { destruct Hc as (n & Hd & H1 & H2 & H3 & HL). change (rata_die 1970 1 1) with 719163 in HL. eapply is_year_unique; [apply time_year_correct|].
    replace ((t_unix g + t_offset g) / 86400 + 719163) with n by (rewrite HL; clear - H1 H2 H3; lia). eapply is_date_year. exact Hd. }
  destruct (rfc3339_total g [] nano Hg ltac:(lia)) as (out & Es & _). cbn [app] in Es. exists out. split; [|eapply rfc3339_right; eauto].
  intros r. apply (marshal_iff H vcall OK m TTime w _ opts o _ None r Hr Ho). apply time_encodes; [exact OK|]. rewrite (encode_rfc H g o nano ltac:(lia) Hl), Es. reflexivity.
Qed.

(** ** Examples *)
Lemma plain_no_quote s : plain_text s -> ~ In 34 s.
Proof.
  intros (rs & U & F). revert F. induction U as [|r s rs Hr U IH]; intros F; [auto|]. inversion F as [|? ? (A & B & C) F']; subst. rewrite in_app_iff.
  intros [I|I]; [|exact (IH F' I)]. unfold utf8, scalar in *. destruct (r <? 0x80) eqn:E1; [destruct I as [->|[]]; lia|]. destruct (r <? 0x800) eqn:E2; [|destruct (r <? 0x10000) eqn:E3]; cbn [In] in I; lia.
Qed.

(** The element of [1]T whose text has a quotation mark: not its string. *)
Example C38_exact_ex : exists b us, infix b (lit "[""a""b""]") /\ string_units (lit "a""b") us /\ ~ json no_ws true (JStr us) b.
Proof.
  destruct (C38_exact mtH mtV _ _ _ _ _ _ _ (TNamed 3) false false (VInt 1) (TNamed 3) (VInt 1) (lit "a""b") mt_ok mt_sort tx_call tx_out) as (b & us & _ & A & B & C).
  - apply (walk_ok mtH default_opts 10 [0%nat]). vm_compute. reflexivity.
  - reflexivity.
  - apply (proj1 (method_first mtH (TNamed 3) false MText false)). vm_compute. reflexivity.
  - apply rc_val; [reflexivity | discriminate].
  - reflexivity.
  - exists b, us. split; [exact A|]. split; [exact B|]. intros J. apply C in J. apply (plain_no_quote _ J). cbn. auto.
Qed.

(** The layout of one quotation mark. *)
Example C45_exact_ex : exists out us, marshal_returns exH (cell_mem (CTime leap_day)) (Some (TTime, 100)) [Some (OTimeLayout [34])] (MOk out) /\ string_units [34] us /\ ~ cjson (JStr us) out.
Proof.
  destruct (C45_exact exH ex_vcall _ _ leap_day [Some (OTimeLayout [34])] (apply default_opts [Some (OTimeLayout [34])]) 2024 ex_ok (time_holds _ leap_day_ok) eq_refl) as (out & us & A & B & C).
  - repeat split; cbn; discriminate.
  - apply local_year_iff. reflexivity.
  - lia.
  - apply bytes_okb_ok. reflexivity.
  - exists out, us. split; [apply A; reflexivity|]. split; [exact B|]. intros J. apply C in J. apply (plain_no_quote _ J). cbn. auto.
Qed.

(** The first field of S, which holds a quotation mark. *)
Example C39_exact_ex : exists b, bytes_of mtH mtV default_opts (TString, false, true, VStr [34]) b /\ infix b s_text /\ ~ doubly_encoded mtH mtV default_opts TString false (VStr [34]) b.
Proof.
  destruct (C39_exact mtH mtV _ _ _ _ _ _ _ TString false [34] mt_ok ex_shortest mt_sort s_call ik_esc s_out) as (b & A & B & C).
  - apply (walk_ok mtH default_opts 10 [0%nat]). vm_compute. reflexivity.
  - split; reflexivity.
  - reflexivity.
  - exists b. split; [exact A|]. split; [exact B|]. intros D. apply C in D.
    apply (quotable_units [34] [U16 34]) in D; [inversion D as [|? ? X _]; cbn in X; lia|].
    exists [inl 34]. split; [apply (sg_ascii 34 [] []); [lia | constructor] | reflexivity].
Qed.

(** The last second of year 0 is right; one of two minutes before the last
    day is not; nor is an offset of 100 hours. *)
Definition year0_end : gtime := mkTime ((rata_die 0 12 31 - rata_die 1970 1 1) * 86400 + 86399) 5 0.
Definition year0_eve : gtime := mkTime ((rata_die 0 12 30 - rata_die 1970 1 1) * 86400 + 86280) 5 0.
Definition far_zone : gtime := mkTime 0 0 360000.

Lemma civil_intro s y m d hh mi ss : 1 <= m <= 12 -> 1 <= d <= month_len y m -> 0 <= hh < 24 -> 0 <= mi < 60 -> 0 <= ss < 60 ->
  s = (rata_die y m d - rata_die 1970 1 1) * 86400 + hh * 3600 + mi * 60 + ss -> civil s y m d hh mi ss.
Proof. intros A B C D F E. exists (rata_die y m d). split; [split; [exact A | split; [exact B | reflexivity]]|]. auto. Qed.

Lemma year0_end_ok : gtime_ok year0_end.
Proof. unfold year0_end, gtime_ok. cbn [t_unix t_nsec t_offset]. change (rata_die 0 12 31) with 0. change (rata_die 1970 1 1) with 719163. lia. Qed.
Lemma year0_eve_ok : gtime_ok year0_eve.
Proof. unfold year0_eve, gtime_ok. cbn [t_unix t_nsec t_offset]. change (rata_die 0 12 30) with (-1). change (rata_die 1970 1 1) with 719163. lia. Qed.
Lemma far_zone_ok : gtime_ok far_zone.
Proof. unfold far_zone, gtime_ok. cbn [t_unix t_nsec t_offset]. lia. Qed.

Example C12_exact_end : exists out, marshal_returns exH (cell_mem (CTime year0_end)) (Some (TTime, 100)) [] (MOk out) /\ rfc3339_of year0_end true out.
Proof.
  destruct (C12_exact exH ex_vcall _ _ year0_end [] default_opts true 0 12 31 23 59 59 ex_ok (time_holds _ year0_end_ok) eq_refl) as (out & A & B).
  - split; reflexivity.
  - apply civil_intro; try lia; [vm_compute; split; discriminate | reflexivity].
  - lia.
  - exists out. split; [apply A; reflexivity|]. apply B. cbn. lia.
Qed.
Example C12_exact_eve : exists out, marshal_returns exH (cell_mem (CTime year0_eve)) (Some (TTime, 100)) [] (MOk out) /\ ~ rfc3339_of year0_eve true out.
Proof.
  destruct (C12_exact exH ex_vcall _ _ year0_eve [] default_opts true 0 12 30 23 58 0 ex_ok (time_holds _ year0_eve_ok) eq_refl) as (out & A & B).
  - split; reflexivity.
  - apply civil_intro; try lia; [vm_compute; split; discriminate | reflexivity].
  - lia.
  - exists out. split; [apply A; reflexivity|]. intros X. apply B in X. lia.
Qed.
Example C12_exact_zone : exists out, marshal_returns exH (cell_mem (CTime far_zone)) (Some (TTime, 100)) [] (MOk out) /\ ~ rfc3339_of far_zone true out.
Proof.
  destruct (C12_exact exH ex_vcall _ _ far_zone [] default_opts true 1970 1 5 4 0 0 ex_ok (time_holds _ far_zone_ok) eq_refl) as (out & A & B).
  - split; reflexivity.
  - apply civil_intro; try lia; [vm_compute; split; discriminate | reflexivity].
  - lia.
  - exists out. split; [apply A; reflexivity|]. intros X. apply B in X. cbn in X. lia.
Qed.

Print Assumptions C12_exact.
Print Assumptions C38_exact.
Print Assumptions C39_exact.
Print Assumptions C45_exact.
