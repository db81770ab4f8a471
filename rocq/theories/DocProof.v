(** The encoding of a value means what the documentation says. *)
From Coq Require Import Permutation Sorted.
From Verif Require Import Base Utf8 NumberModel NumberProof IntModel JsonSpec OptionsModel EscapeModel EscapeProof JsonParse CompactModel CompactProof IntProof
  BufModel DurationModel DurationProof CalendarSpec TypesModel TypesFacts TagsModel TagsProof
  TimeModel TimeProof FloatModel FloatProof LeafModel LeafProof MemModel FieldsSpec FieldsModel FieldsProof FieldsThm Base64Model InstrModel ExecModel ValueModel
  ExecMono ExecProof VencFacts Base64Proof DocSpec EntriesFacts DocLeaf PartFacts.

Lemma cjson_false lax j s : json no_ws false j s -> json no_ws lax j s.
Proof. exact (to_lax lax j s). Qed.

Lemma vquote_ret r out : vquote r = VRet out None -> exists b, r = VRet b None /\ out = 34 :: b ++ [34].
Proof. destruct r as [b [e|]| |]; try discriminate. intros [= <-]. eauto. Qed.

Lemma lift_ret r out : lift r = VRet out None -> r = Ret out None.
Proof. destruct r; try discriminate. intros [= -> ->]. reflexivity. Qed.

Section Sound.
  Variable H : host.
  Variable vcall : mkind -> typ -> val -> option Z -> bytes + Z.
  Hypothesis OK : host_ok H vcall.
  Hypothesis SH : shortest_ok (h_shortest H).
  Hypothesis SO : sort_ok H.
  Variable o : encOpts.
  Hypothesis ON : esc_on o.
  Hypothesis DV : dur_valid (o_durationFmt o) = true.
  Variable m : mem.
  Variable lax : bool.
  Notation E := (h_env H).
  Notation opt := (has (o_flags o)).
  Notation tok := (typ_ok (h_letter H) (h_udigit H)).
  Notation rp := (repr H m).
  Notation Doc := (doc H vcall o).
  Notation J := (json no_ws lax).

  Definition all_sound (x : node) : Prop := forall y, part H o x y -> sound_node H vcall o lax y.

  Lemma all_sound_here x : all_sound x -> sound_node H vcall o lax x.
  Proof. intros Hx. apply Hx, part_refl. Qed.

  Lemma all_sound_child x y : all_sound x -> child H o x y -> all_sound y.
  Proof. intros Hx Hc z Hz. apply Hx. eapply part_step; eauto. Qed.

  Lemma sound_plain t ca q v : native t = false -> sound_node H vcall o lax (t, ca, q, v) ->
    match method_of H t ca with
    | Some (k, hp) => forall td w b, receiver H t hp v td w -> vcall k td w (ctx_of o k) = inl b -> result_sound o lax k b
    | None =>
      match under E t, v with
      | TString, VStr s => q = true -> quotable s
      | TSlice e, VNil => byte_elem H e = true -> opt nilSliceEmpty = false
      | TMap kt _, VMap es => forall k v, In (k, v) es -> key_sound H o kt false k
      | TStruct _, VStruct vs =>
        forall n pre f post ft x, structFields H n t = Some (pre ++ f :: post) -> Forall (hidden H o t v) pre -> shown H o t v f ft x ->
          drops_null H f ft -> ~ Doc ft ca (quoted H f ft) x JNull
      | _, _ => True
      end
    end.
  Proof. intros Hn. destruct t; try discriminate Hn; exact (fun x => x). Qed.

  (** ** Methods *)
  Lemma method_doc k t td w out : vmethod vcall o k t td w = VRet out None ->
    exists b, vcall k td w (ctx_of o k) = inl b /\ (result_sound o lax k b -> exists j, result_means k b j /\ J j out).
  Proof.
    destruct k; cbn [vmethod ctx_of].
    - destruct (vcall MCtx td w (o_ctx o)) as [b|e] eqn:Ec; [|discriminate]. intros [= <-]. exists b. split; [reflexivity|]. intros (j & Hj). exists j.
      split; [eapply json_text_of_lax, json_no_ws_text; eauto | exact Hj].
    - destruct (vcall MApp td w None) as [b|e] eqn:Ec; [|discriminate]. intros [= <-]. exists b. split; [reflexivity|]. intros (j & Hj). exists j.
      split; [eapply json_text_of_lax, json_no_ws_text; eauto | exact Hj].
    - intros Hr. apply lift_ret in Hr. destruct (vcall MJson td w None) as [b|e] eqn:Ec; [|discriminate Hr]. exists b. split; [reflexivity|].
      assert (Hb := ok_bytes _ _ OK _ _ _ _ _ Ec). cbn [encode_json_result] in Hr. cbn [result_sound result_means]. destruct (opt noCompact) eqn:En.
      + injection Hr as <-. intros (j & Hj). exists j. split; [eapply json_text_of_lax, json_no_ws_text; eauto | exact Hj].
      + destruct (json_valid b) eqn:Ev; cbn [negb] in Hr; [|discriminate]. injection Hr as <-. intros Hs. rewrite appendCompactJSON_spec by exact Hb. cbn [app].
        destruct lax.
        * unfold json_valid in Ev. destruct (parse_json b) as [j|] eqn:Ej; [|discriminate]. apply (proj1 (parse_json_correct b j Hb)) in Ej.
          exists j. split; [exact Ej|]. destruct (cs_text (negb (opt noHTMLEscaping)) true j b Ej Hb) as (s' & <- & Hj & _). exact Hj.
        * destruct (Hs eq_refl) as (j & Hj). exists j. split; [apply (json_text_of_lax false); exact Hj|].
          destruct (cs_text (negb (opt noHTMLEscaping)) false j b Hj Hb) as (s' & <- & Hj' & _). exact Hj'.
    - intros Hr. apply lift_ret in Hr. destruct (vcall MText td w None) as [b|e] eqn:Ec; [|discriminate Hr]. exists b. split; [reflexivity|].
      cbn [encode_text_result app] in Hr. injection Hr as <-. intros Hp. cbn [result_sound] in Hp. destruct (plain_string b Hp) as (us & Hu & Hj).
      exists (JStr us). split; [exists us; auto | apply to_lax; exact Hj].
  Qed.

  Lemma marshaler_doc n k t ca q hp v out : native t = false -> method_of H t ca = Some (k, hp) -> sound_node H vcall o lax (t, ca, q, v) ->
    vmarshaler H vcall o n k t hp v = VRet out None -> exists j, Doc t ca q v j /\ J j out.
  Proof.
    intros Hn Hm Hs Hr. apply (sound_plain t ca q v Hn) in Hs. rewrite Hm in Hs.
    assert (Go : forall t' td w, receiver H t hp v td w -> vmethod vcall o k t' td w = VRet out None -> exists j, Doc t ca q v j /\ J j out).
    { intros t' td w Hrc Hv. destruct (method_doc _ _ _ _ _ Hv) as (b & Hc & Hj). destruct (Hj (Hs _ _ _ Hrc Hc)) as (j & Hj1 & Hj2).
      exists j. split; [eapply D_method; eauto | exact Hj2]. }
    unfold vmarshaler in Hr. destruct hp; [exact (Go _ _ _ (rc_addr H t v) Hr)|].
    assert (Nul : is_ptr H t = true \/ is_iface H t = true -> v = VNil -> out = l_null -> exists j, Doc t ca q v j /\ J j out).
    { intros Hc -> ->. exists JNull. split; [eapply D_method_nil; eauto | constructor]. }
    destruct (under E t) eqn:Eu;
    try (destruct (is_direct H n t) as [[|]|]; [discriminate | | discriminate]; refine (Go _ _ _ (rc_val H t v _ _) Hr);
         [unfold is_iface; rewrite Eu; reflexivity | unfold is_ptr; rewrite Eu; discriminate]).
    - destruct v; try discriminate; [injection Hr as <-; apply Nul; auto; right; unfold is_iface; rewrite Eu; reflexivity|].
      exact (Go _ _ _ (rc_dyn H t _ _ _ Eu) Hr).
    - destruct v; try discriminate; [injection Hr as <-; apply Nul; auto; left; unfold is_ptr; rewrite Eu; reflexivity|].
      refine (Go _ _ _ (rc_val H t _ _ _) Hr); [unfold is_iface; rewrite Eu; reflexivity | discriminate].
  Qed.

  (** ** Scalars *)
  Lemma time_doc g ca q out : gtime_ok g -> time_sound H o g -> encode_time (h_fmt H) g [] o = Ret out None -> exists j, Doc TTime ca q (VTime g) j /\ J j out.
  Proof.
    intros Hg Hs. unfold encode_time. destruct ((time_year g <? 0) || (10000 <=? time_year g)) eqn:Ey; [discriminate|].
    destruct (opt unixTime) eqn:Eu.
    { intros [= <-]. destruct (int_doc (t_unix g)) as [H1 H2]. eexists. split; [apply D_unix; eauto | apply to_lax; exact H2]. }
    assert (Rfc : forall nano : bool, o_timeLayout o = (if nano then layout_RFC3339Nano else layout_RFC3339) ->
      ret_opt (appendRFC3339Time g [] nano) = Ret out None -> exists j, Doc TTime ca q (VTime g) j /\ J j out).
    { intros nano Hl Hr. destruct Hs as [Hs|[(_ & Hy & Ho)|(N1 & N2 & _)]]; [congruence | | destruct nano; congruence].
      destruct (rfc3339_correct g [] nano Hg) as (s & y & mo & d & hh & mi & ss & Es & Hd & Hc); [lia | exact Ho |].
      rewrite Es in Hr. injection Hr as <-. destruct (plain_string s) as (us & Hu & Hj); [apply plain_ascii; eapply date_time_pchar; eauto|].
      exists (JStr us). split; [eapply D_time; eauto | apply to_lax; exact Hj]. }
    destruct (bytes_eqb (o_timeLayout o) layout_RFC3339) eqn:E1.
    { apply bytes_eqb_eq in E1. apply (Rfc false). exact E1. }
    destruct (bytes_eqb (o_timeLayout o) layout_RFC3339Nano) eqn:E2.
    { apply bytes_eqb_eq in E2. apply (Rfc true). exact E2. }
    assert (N1 : o_timeLayout o <> layout_RFC3339) by (intros X; rewrite X, bytes_eqb_refl in E1; discriminate).
    assert (N2 : o_timeLayout o <> layout_RFC3339Nano) by (intros X; rewrite X, bytes_eqb_refl in E2; discriminate).
    intros [= <-]. destruct Hs as [Hs|[([X|X] & _)|(_ & _ & Hp)]]; try congruence. destruct (plain_string _ Hp) as (us & Hu & Hj).
    exists (JStr us). split; [apply D_layout; auto | apply to_lax; exact Hj].
  Qed.

  Lemma duration_doc d ca out : - 2 ^ 63 <= d < 2 ^ 63 -> encode_duration (h_shortest H) (h_tofloat H) d [] o = Ret out None -> exists j, Doc TDuration ca false (VInt d) j /\ J j out.
  Proof.
    intros Hd. assert (I : forall n, int_lit (append_int [] n) n /\ J (JNum (append_int [] n)) (append_int [] n)).
    { intros n. destruct (int_doc n). split; [assumption | apply to_lax; assumption]. }
    unfold encode_duration. destruct (o_durationFmt o =? DurationMinutes) eqn:E1; [|destruct (o_durationFmt o =? DurationSeconds) eqn:E2;
      [|destruct (o_durationFmt o =? DurationMicroseconds) eqn:E3; [|destruct (o_durationFmt o =? DurationMilliseconds) eqn:E4;
      [|destruct (o_durationFmt o =? DurationString) eqn:E5]]]].
    - intros Hr. destruct (float_doc _ _ _ _ SH Hr) as [H1 H2]. exists (JNum out). split; [|apply j_num; exact H2]. apply D_dur, dn_min; [lia | exact H1].
    - intros Hr. destruct (float_doc _ _ _ _ SH Hr) as [H1 H2]. exists (JNum out). split; [|apply j_num; exact H2]. apply D_dur, dn_sec; [lia | exact H1].
    - intros [= <-]. destruct (I (Z.quot d 1000)) as [H1 H2]. eexists. split; [|exact H2]. apply D_dur, dn_us; [lia | exact H1].
    - intros [= <-]. destruct (I (Z.quot d 1000000)) as [H1 H2]. eexists. split; [|exact H2]. apply D_dur, dn_ms; [lia | exact H1].
    - destruct (append_duration ([] ++ [34]) d) as [r|] eqn:Ea; [|discriminate]. intros [= <-].
      destruct (append_duration_spec ([] ++ [34]) d Hd) as (s & Es & Hs). rewrite Ea in Es. injection Es as ->.
      destruct (plain_string s (dur_text_plain _ _ Hs)) as (us & Hu & Hj). exists (JStr us). split; [|apply to_lax; exact Hj].
      eapply D_dur_str; eauto. lia.
    - intros [= <-]. destruct (I d) as [H1 H2]. eexists. split; [|exact H2]. apply D_dur, dn_ns; [|exact H1].
      unfold dur_valid, DurationMinutes, DurationSeconds, DurationMicroseconds, DurationMilliseconds, DurationString, DurationNanoseconds in *. lia.
  Qed.

  Lemma number_doc s ca out : (opt noNumberValidation = true -> s = [] \/ jnumber s) -> encode_number s [] o = Ret out None ->
    exists j, Doc TNumber ca false (VStr s) j /\ J j out.
  Proof.
    intros Hs. unfold encode_number. set (num := match s with [] => [48] | _ => s end). intros Hr.
    assert (Hn : out = num /\ jnumber num).
    { destruct (opt noNumberValidation) eqn:En; cbn [negb andb] in Hr.
      - injection Hr as <-. split; [reflexivity|]. destruct (Hs eq_refl) as [->|Hj].
        + exists [], [48], [], []. repeat split; auto; constructor.
        + unfold num. destruct s; [destruct (jnumber_head [] Hj) as (c & t & X & _); discriminate | exact Hj].
      - destruct (is_valid_number num) eqn:Ev; cbn [negb] in Hr; [|discriminate]. injection Hr as <-. split; [reflexivity|].
        apply is_valid_number_correct. exact Ev. }
    destruct Hn as [-> Hn]. unfold num in *. destruct s.
    - exists (JNum [48]). split; [apply D_num_empty | apply j_num; exact Hn].
    - eexists. split; [apply D_num; exact Hn | apply j_num; exact Hn].
  Qed.

  Lemma raw_doc vs b ca q out : bytes_ok b -> vbytes vs = Some b -> json_given o lax b -> encode_raw_message (Some b) [] o = Ret out None ->
    exists j, Doc TRawMessage ca q (VSlice vs) j /\ J j out.
  Proof.
    intros Hb Hv (j & Hj) Hr. exists j. cbn [encode_raw_message] in Hr. destruct (opt noCompact).
    - injection Hr as <-. split; [|exact Hj]. eapply D_raw; [exact Hv|]. eapply json_text_of_lax, json_no_ws_text; eauto.
    - injection Hr as <-. rewrite appendCompactJSON_spec by exact Hb. cbn [app]. split; [eapply D_raw; [exact Hv|]; eapply json_text_of_lax; eauto|].
      destruct (cs_text (negb (opt noHTMLEscaping)) lax j b Hj Hb) as (s' & <- & Hj' & _). exact Hj'.
  Qed.

  Lemma string_doc s us : bytes_ok s -> string_units s us -> J (JStr us) (encode_string [] s o).
  Proof. intros Hb Hu. apply to_lax, encode_string_json; auto. Qed.

  (** A number or boolean inside quotes. *)
  Lemma quoted_scalar t ca v j b : plain H t ca -> isBasicType E t = true -> Doc t ca false v j -> cjson j b -> Forall pchar b ->
    exists j', Doc t ca true v j' /\ J j' (34 :: b ++ [34]).
  Proof.
    intros Hp Hb Hd Hj Hc. exists (JStr (map U16 b)). split.
    - eapply D_quoted; eauto. apply ascii_units. eapply Forall_impl; [|exact Hc]. unfold pchar. intros c; cbn; lia.
    - apply to_lax, j_str, ascii_jchars, Hc.
  Qed.

  Lemma scalar_quote t ca q v j b out : plain H t ca -> isBasicType E t = true -> Doc t ca false v j -> cjson j b -> Forall pchar b ->
    vquote_if q (VRet b None) = VRet out None -> exists j', Doc t ca q v j' /\ J j' out.
  Proof.
    intros Hp Hb Hd Hj Hc Hq. destruct q; cbn [vquote_if] in Hq.
    - apply vquote_ret in Hq. destruct Hq as (b' & [= <-] & ->). eapply quoted_scalar; eauto.
    - injection Hq as <-. exists j. split; [exact Hd | apply to_lax; exact Hj].
  Qed.

  (** A string inside quotes, when decoding once is enough. *)
  Lemma quoted_string_doc t ca s : plain H t ca -> under E t = TString -> bytes_ok s -> quotable s ->
    exists j, Doc t ca true (VStr s) j /\ J j (encode_quoted_string [] s o).
  Proof.
    intros Hp Hu Hb (segs & Hs & Hq).
    set (us := flat_map coerced_units segs). assert (Us : string_units s us) by (exists segs; auto).
    set (rune := fun u : Z + Z => match u with inl r => r | inr _ => 0xFFFD end).
    set (rs := map rune segs).
    assert (Sc : Forall (fun u => match u with inl r => scalar r | inr _ => True end) segs).
    { clear -Hs. induction Hs; constructor; auto. }
    assert (Ku : Forall key_rune rs).
    { unfold rs. rewrite Forall_map. clear -Hq Sc. induction segs as [|u segs IH]; [constructor|]. inversion Hq; inversion Sc; subst. constructor; [|auto].
      destruct u as [r|b]; cbn [rune]; unfold key_rune; [tauto | unfold scalar; lia]. }
    assert (Ur : us = flat_map utf16 rs).
    { unfold us, rs. clear. induction segs as [|u segs IH]; [reflexivity|]. cbn [flat_map map]. rewrite IH. destruct u; reflexivity. }
    set (body := flat_map utf8 rs).
    assert (Ub : utf8_string body rs).
    { unfold body. clear -Ku. induction Ku as [|r rs Hr _ IH]; [constructor|]. cbn [flat_map]. constructor; [apply Hr | exact IH]. }
    exists (JStr (U16 34 :: us ++ [U16 34])). split.
    - apply (D_quoted H vcall o t ca (VStr s) (JStr us) (34 :: body ++ [34])); auto.
      + unfold isBasicType, isString. rewrite Hu. rewrite orb_true_r. reflexivity.
      + apply D_str; auto.
      + apply j_str. rewrite Ur. apply key_raw_jchars; assumption.
      + replace (U16 34 :: us ++ [U16 34]) with (flat_map utf16 (34 :: rs ++ [34])).
        * apply string_units_valid. change (34 :: body ++ [34]) with (utf8 34 ++ (body ++ [34])). constructor; [unfold scalar; lia|].
          apply utf8_string_app; [exact Ub|]. change [34] with (utf8 34 ++ []) at 1. constructor; [unfold scalar; lia | constructor].
        * cbn [flat_map]. rewrite flat_map_app, <- Ur. reflexivity.
    - unfold encode_quoted_string. rewrite appendEscapedBytes_app by exact Hb. cbn [app]. 
      change (l_qbq ++ escaped o s) with (34 :: ([92; 34] ++ escaped o s)). rewrite <- app_comm_cons, <- app_assoc.
      change l_bqq with ([92; 34] ++ [34]). rewrite 2!app_assoc. apply to_lax, j_str.
      rewrite <- app_assoc.
      change (U16 34 :: us ++ [U16 34]) with ([U16 34] ++ us ++ [U16 34]).
      assert (Jq : jchars false [U16 34] [92; 34]) by (apply (jc_esc2 false 34 34 [] []); [reflexivity | constructor]).
      apply jchars_app; [exact Jq | | reflexivity]. apply jchars_app; [|exact Jq | reflexivity].
      apply escaped_string_units; auto.
  Qed.

  (** ** Values with parts *)
  Section Rec.
  Variable rec : typ -> bool -> bool -> val -> vres.
  Hypothesis IH : forall t ca q v out, held H m (t, ca, q, v) -> all_sound (t, ca, q, v) -> rec t ca q v = VRet out None ->
    exists j, Doc t ca q v j /\ J j out.

  Lemma elems_doc e ca vs bs : (forall v, In v vs -> held H m (e, ca, false, v) /\ all_sound (e, ca, false, v)) ->
    Forall2 (fun v b => rec e ca false v = VRet b None) vs bs -> exists js, doc_elems H vcall o e ca vs js /\ Forall2 J js bs.
  Proof.
    intros Hv Hf. induction Hf as [|v b vs bs Hr Hf IHf].
    - exists []. split; constructor.
    - destruct IHf as (js & Hd & Hj); [intros; apply Hv; right; assumption|]. destruct (Hv v (or_introl eq_refl)) as [Hh Hs].
      destruct (IH _ _ _ _ _ Hh Hs Hr) as (j & D1 & J1). exists (j :: js). split; constructor; auto.
  Qed.

  Lemma doc_text kt ca v j hp : native kt = false -> method_of H kt ca = Some (MText, hp) -> v <> VNil -> Doc kt ca false v j -> exists us, j = JStr us.
  Proof.
    intros Hn Hm Hv Hd. inversion Hd as [| | | | | | | | | |? ? ? k ? ? ? ? ? ? N1 M1 R1 C1 S1|? ? ? k N1 M1 C1| | | | | | | | | | | | | | | | | |]; subst;
      try discriminate Hn; try (destruct H0 as [? Hx]; congruence); try congruence.
    rewrite Hm in M1. injection M1 as <- <-. destruct S1 as (us & _ & ->). eauto.
  Qed.

  Lemma doc_int kt ca v j : plain H kt ca -> isInteger E kt = true -> Doc kt ca false v j -> exists l, j = JNum l.
  Proof.
    intros [Hn Hm] Hi Hd. unfold isInteger in Hi. inversion Hd; subst; try discriminate Hn; try congruence; eauto;
      match goal with Hu : under E kt = _ |- _ => rewrite Hu in Hi; discriminate | _ => idtac end.
  Qed.

  Lemma doc_time ca q v j : opt unixTime = false -> Doc TTime ca q v j -> exists us, j = JStr us.
  Proof. intros Hu Hd. inversion Hd; subst; try discriminate; try congruence; eauto; match goal with Hp : plain H TTime _ |- _ => destruct Hp as [Hx _]; discriminate Hx end. Qed.

  Lemma doc_dur ca q v j : o_durationFmt o <> DurationString -> Doc TDuration ca q v j -> exists l, j = JNum l.
  Proof. intros Hu Hd. inversion Hd; subst; try discriminate; try congruence; eauto; match goal with Hp : plain H TDuration _ |- _ => destruct Hp as [Hx _]; discriminate Hx end. Qed.

  Lemma json_number l b : J (JNum l) b -> b = l /\ jnumber l.
  Proof. intros Hj. inversion Hj; subst. auto. Qed.

  (** A key that is not a string. *)
  Lemma key_doc kt ca k out : isString E kt = false -> (isInteger E kt || h_impl H kt MText) = true ->
    (h_impl H kt MText && is_ptr H kt && vnil k) = false -> held H m (kt, ca, false, k) -> all_sound (kt, ca, false, k) -> key_sound H o kt ca k ->
    vquote_if (negb (h_impl H kt MText)) (rec kt ca false k) = VRet out None -> exists us, doc_key H vcall o kt ca k us /\ J (JStr us) out.
  Proof.
    intros Hs Hk Hn Hh Ha Hsn Hr. specialize (Hsn Hs). destruct (h_impl H kt MText) eqn:Ei; cbn [negb vquote_if andb] in *.
    - destruct (IH _ _ _ _ _ Hh Ha Hr) as (j & Hd & Hj). assert (X : exists us, j = JStr us).
      { destruct Hsn as [(-> & Hu)|(Hna & (hp & Hm) & Hv)].
        - eapply doc_time; eauto.
        - apply (doc_text kt ca k j hp); auto. intros ->. destruct (is_ptr H kt); [discriminate Hn|]. apply Hv; reflexivity. }
      destruct X as (us & ->). exists us. split; [|exact Hj]. apply K_text; auto. destruct Hsn as [(-> & _)|(_ & Hm & _)]; auto.
    - rewrite orb_false_r in Hk. apply vquote_ret in Hr. destruct Hr as (b & Hr & ->). destruct (IH _ _ _ _ _ Hh Ha Hr) as (j & Hd & Hj).
      assert (X : exists l, j = JNum l).
      { destruct Hsn as [(-> & Hf)|Hp]; [eapply doc_dur; eauto | eapply doc_int; eauto]. }
      destruct X as (l & ->). destruct (json_number _ _ Hj) as (-> & Hl). exists (map U16 l). split.
      + apply K_int; auto. destruct Hsn as [(-> & _)|Hp]; auto.
      + apply to_lax, j_str, ascii_jchars, jnumber_pchar, Hl.
  Qed.

  Lemma str_key kt ca s out : isString E kt = true -> bytes_ok s -> VRet (encode_string [] s o) None = VRet out None ->
    exists us, doc_key H vcall o kt ca (VStr s) us /\ J (JStr us) out.
  Proof.
    intros Hs Hb [= <-]. destruct (string_units_total s Hb) as (us & Hu). exists us. split; [apply K_str; auto | apply string_doc; auto].
  Qed.

  Definition jmember (ms : list cu * jval) (kv : member) : Prop := J (JStr (fst ms)) (fst kv) /\ J (snd ms) (snd kv).

  Lemma held_string l t s : rp l t (VStr s) -> bytes_ok s.
  Proof. intros Hr. inversion Hr; subst; assumption. Qed.

  Lemma entries_doc kt et es kvs : key_ok H kt = true ->
    (forall k v, In (k, v) es -> held H m (kt, false, false, k) /\ held H m (et, false, false, v) /\ all_sound (et, false, false, v) /\ key_sound H o kt false k /\
       (isString E kt = false -> (h_impl H kt MText && is_ptr H kt && vnil k) = false -> all_sound (kt, false, false, k))) ->
    Forall2 gives (map (fun kv => (vkey H o rec kt (fst kv), rec et false false (snd kv))) es) kvs ->
    exists ms, doc_entries H vcall o kt et es ms /\ Forall2 jmember ms kvs.
  Proof.
    intros Hk. revert kvs. induction es as [|[k v] es IHe]; intros kvs Hes Hf; cbn [map] in Hf.
    - inversion Hf; subst. exists []. split; constructor.
    - inversion Hf as [|? [kb vb] ? kvs' Hg Hf']; subst. destruct Hg as [G1 G2]. cbn [fst snd] in G1, G2.
      destruct (Hes k v (or_introl eq_refl)) as (Hh1 & Hh2 & Hs2 & Hks & Hs1).
      destruct (IHe kvs') as (ms & Dm & Jm); [intros; apply Hes; right; assumption | exact Hf' |].
      destruct (IH _ _ _ _ _ Hh2 Hs2 G2) as (j & Dj & Jj).
      assert (X : exists us, doc_key H vcall o kt false k us /\ J (JStr us) kb).
      { unfold vkey in G1. destruct (isString E kt) eqn:Es.
        - destruct k; try discriminate G1. destruct Hh1 as (_ & l & Hl). apply str_key; auto. eapply held_string; eauto.
        - destruct (h_impl H kt MText && is_ptr H kt && vnil k) eqn:En.
          + injection G1 as <-. destruct k; cbn [vnil] in En; rewrite ?andb_false_r in En; try discriminate.
            apply andb_prop in En. destruct En as [En _]. apply andb_prop in En. destruct En as [En1 En2]. exists []. split; [apply K_nil; auto|].
            apply to_lax. apply (j_str no_ws false [] []). constructor.
          + apply (key_doc kt false k kb); auto. unfold key_ok in Hk. rewrite Es in Hk. exact Hk. }
      destruct X as (us & Du & Ju). exists ((us, j) :: ms). split; constructor; auto. split; assumption.
  Qed.

  Lemma vany_rec n t v out : vany H rec n t v = VRet out None -> rec t (is_ptr H t) false v = VRet out None.
  Proof.
    unfold vany. destruct (is_direct H n t) as [d|]; [|discriminate]. destruct (isInlined H n t) as [i|]; [|discriminate].
    destruct (Bool.eqb d i || opaque H t); [auto | discriminate].
  Qed.

  Lemma sync_doc n es kvs :
    (forall kt k v, In (VIface kt k, v) es -> held H m (kt, is_ptr H kt, false, k) /\ key_sound H o kt (is_ptr H kt) k /\ (h_impl H kt MText = true -> k <> VNil) /\
       (isString E kt = false -> (isInteger E kt || h_impl H kt MText) = true -> all_sound (kt, is_ptr H kt, false, k))) ->
    (forall vt k v, In (k, VIface vt v) es -> held H m (vt, is_ptr H vt, false, v) /\ all_sound (vt, is_ptr H vt, false, v)) ->
    Forall2 gives (map (fun kv => (vsync_key H o rec n (fst kv), vsync_val H rec n (snd kv))) es) kvs ->
    exists ms, doc_sync H vcall o es ms /\ Forall2 jmember ms kvs.
  Proof.
    revert kvs. induction es as [|[k v] es IHe]; intros kvs Hes Hvs Hf; cbn [map] in Hf.
    - inversion Hf; subst. exists []. split; constructor.
    - inversion Hf as [|? [kb vb] ? kvs' Hg Hf']; subst. destruct Hg as [G1 G2]. cbn [fst snd] in G1, G2.
      destruct (IHe kvs') as (ms & Dm & Jm); [intros; eapply Hes; right; eassumption | intros; eapply Hvs; right; eassumption | exact Hf' |].
      destruct v as [| | | | | |vt v| | | | | | |]; try discriminate G2. cbn [vsync_val] in G2. apply vany_rec in G2.
      destruct (Hvs vt k v (or_introl eq_refl)) as (Hh2 & Hs2). destruct (IH _ _ _ _ _ Hh2 Hs2 G2) as (j & Dj & Jj).
      destruct k as [| | | | | |kt k| | | | | | |]; try discriminate G1. cbn [vsync_key] in G1.
      destruct (Hes kt k _ (or_introl eq_refl)) as (Hh1 & Hks & Hnn & Hs1).
      assert (X : exists us, doc_key H vcall o kt (is_ptr H kt) k us /\ J (JStr us) kb).
      { destruct (isString E kt) eqn:Es; cbn [negb andb] in G1.
        - destruct k; try discriminate G1. destruct Hh1 as (_ & l & Hl). apply str_key; auto. eapply held_string; eauto.
        - destruct (negb (isInteger E kt) && negb (h_impl H kt MText)) eqn:Ek; [discriminate|].
          assert (Hk : (isInteger E kt || h_impl H kt MText) = true) by (destruct (isInteger E kt), (h_impl H kt MText); auto).
          assert (Hr : vquote_if (negb (h_impl H kt MText)) (rec kt (is_ptr H kt) false k) = VRet kb None).
          { destruct (h_impl H kt MText); cbn [negb vquote_if] in *; [apply vany_rec in G1; exact G1|].
            apply vquote_ret in G1. destruct G1 as (b & G1 & ->). apply vany_rec in G1. rewrite G1. reflexivity. }
          apply (key_doc kt (is_ptr H kt) k kb); auto. destruct (h_impl H kt MText); [|reflexivity]. destruct k; cbn [vnil]; rewrite ?andb_false_r; auto.
          exfalso. apply Hnn; reflexivity. }
      destruct X as (us & Du & Ju). exists ((us, j) :: ms). split; constructor; auto. split; assumption.
  Qed.

  (** Members of a struct. *)
  Lemma key_text_doc name rs : key_name name rs -> exists k us, key_text o name = k ++ [58] /\ string_units name us /\ J (JStr us) k.
  Proof.
    intros Hk. destruct (key_json name rs Hk) as ((k1 & E1 & C1) & (k2 & E2 & C2)). assert (Hu := string_units_valid name rs (proj1 (proj2 Hk))).
    unfold key_text. destruct (opt noHTMLEscaping).
    - exists k1, (flat_map utf16 rs). split; [exact E1|]. split; [exact Hu | apply to_lax; exact C1].
    - exists k2, (flat_map utf16 rs). split; [exact E2|]. split; [exact Hu | apply to_lax; exact C2].
  Qed.

  Lemma fields_doc t ca q vs k all fs0 : plain H t ca -> under E t = TStruct fs0 -> tok t -> structFields H k t = Some all ->
    held H m (t, ca, q, VStruct vs) -> all_sound (t, ca, q, VStruct vs) ->
    forall fs pre first out0 out, all = pre ++ fs -> (first = true -> Forall (hidden H o t (VStruct vs)) pre) ->
    vfields H o rec t ca (VStruct vs) fs first out0 = VRet out None ->
    exists ms kvs, doc_fields H vcall o t ca (VStruct vs) fs ms /\ Forall2 jmember ms kvs /\
      out = out0 ++ (if first then 123 :: join_members kvs ++ [125] else tail_members false kvs ++ [125]).
  Proof.
    intros Hp Hu Ht Hs Hh Ha. induction fs as [|f fs IHf]; intros pre first out0 out Hall Hpre Hr; cbn [vfields] in Hr.
    { exists [], []. split; [constructor|]. split; [constructor|]. destruct first; injection Hr as <-; reflexivity. }
    assert (Hin : In f all) by (rewrite Hall; apply in_app_iff; right; left; reflexivity).
    assert (Hall' : all = (pre ++ [f]) ++ fs) by (rewrite <- app_assoc; exact Hall).
    (* a hidden field *)
    assert (Hid : hidden H o t (VStruct vs) f -> vfields H o rec t ca (VStruct vs) fs first out0 = VRet out None ->
      exists ms kvs, doc_fields H vcall o t ca (VStruct vs) (f :: fs) ms /\ Forall2 jmember ms kvs /\
        out = out0 ++ (if first then 123 :: join_members kvs ++ [125] else tail_members false kvs ++ [125])).
    { intros Hf Hr'. destruct (IHf (pre ++ [f]) first out0 out Hall') as (ms & kvs & A1 & A2 & A3); [|exact Hr'|].
      - intros Ef. apply Forall_app. split; [apply Hpre; exact Ef | constructor; [exact Hf | constructor]].
      - exists ms, kvs. split; [apply DF_hidden; auto | auto]. }
    destruct (isDeniedField o (f_name f)) eqn:Ed; [apply Hid; [left; apply isDeniedField_spec; exact Ed | exact Hr]|].
    assert (Nd : ~ denied o (f_name f)) by (rewrite <- isDeniedField_spec; congruence).
    destruct (negb (right_seq H t f)); [discriminate|].
    destruct (vget (f_index f) (VStruct vs)) as [[x|]|] eqn:Ev; [|apply Hid; [right; left; exact Ev | exact Hr] | discriminate].
    destruct (type_by_index H t (f_index f)) as [ft|] eqn:Et; [|discriminate].
    assert (Fv : field_value H t (VStruct vs) f ft x) by (split; assumption).
    destruct (f_omitNil f && vnil x) eqn:En; [apply Hid; [right; right; exists ft, x; split; [exact Fv | left; apply andb_prop; exact En] | exact Hr]|].
    destruct (f_omitEmpty f && vempty x) eqn:Ee; [apply Hid; [right; right; exists ft, x; split; [exact Fv | right; apply andb_prop; exact Ee] | exact Hr]|].
    assert (Sn : shown H o t (VStruct vs) f ft x).
    { split; [exact Nd|]. split; [exact Fv|]. rewrite <- dropped_spec, En, Ee. discriminate. }
    fold (quoted H f ft) in Hr. cbn zeta in Hr.
    assert (Hc : child H o (t, ca, q, VStruct vs) (ft, ca, quoted H f ft, x)) by (eapply ch_field; eauto).
    assert (Hh' := child_held H vcall OK o m _ _ Hh Hc). assert (Ha' := all_sound_child _ _ Ha Hc).
    destruct (rec ft ca (quoted H f ft) x) as [b [e|]| |] eqn:Er; try discriminate.
    destruct (IH _ _ _ _ _ Hh' Ha' Er) as (j & Dj & Jj).
    assert (Tn := tail_null_json _ _ _ _ Jj).
    destruct (field_name_key H vcall OK k t all f Ht Hs Hin) as (rs & Hk). destruct (key_text_doc _ _ Hk) as (kb & us & Ek & Hus & Jk).
    destruct (f_omitNil f && (h_impl H ft MJson || h_impl H (TPtr ft) MJson) && tail_null b) eqn:Ex.
    - apply andb_prop in Ex. destruct Ex as [Ex1 Ex2]. apply andb_prop in Ex1. destruct Ex1 as [Ex1 Ex3]. apply orb_true_iff in Ex3. apply Tn in Ex2. subst j.
      assert (Dn : drops_null H f ft) by (split; assumption). destruct first.
      + exfalso. assert (S0 := sound_plain _ _ _ _ (proj1 Hp) (all_sound_here _ Ha)). rewrite (proj2 Hp), Hu in S0. rewrite Hall in Hs.
        exact (S0 k pre f fs ft x Hs (Hpre eq_refl) Sn Dn Dj).
      + destruct (IHf (pre ++ [f]) false out0 out Hall') as (ms & kvs & A1 & A2 & A3); [discriminate | exact Hr|].
        exists ms, kvs. split; [eapply DF_null; eauto | auto].
    - destruct (IHf (pre ++ [f]) false (out0 ++ (if first then [123] else [44]) ++ key_text o (f_name f) ++ b) out Hall') as (ms & kvs & A1 & A2 & A3); [discriminate | exact Hr|].
      exists ((us, j) :: ms), ((kb, b) :: kvs). split; [|split].
      + eapply DF_show; eauto. intros ((D1 & D2) & ->). rewrite (proj2 Tn eq_refl) in Ex. rewrite D1 in Ex. cbn [andb] in Ex. rewrite andb_true_r in Ex.
        apply orb_false_iff in Ex. destruct Ex. destruct D2; congruence.
      + constructor; [split; assumption | exact A2].
      + rewrite A3, Ek. unfold tail_members. fold (tail_members false kvs). rewrite join_members_cons. unfold member_text. cbn [fst snd].
        destruct first; rewrite <- !app_assoc; reflexivity.
  Qed.

  Lemma no_fields t fs0 k fs : tok t -> under E t = TStruct fs0 -> fields_of H t = [] -> structFields H k t = Some fs -> fs = [].
  Proof.
    intros Ht Hu Hn Hs. destruct fs as [|f fs]; [reflexivity|]. exfalso.
    destruct (field_candidate H vcall OK k t (f :: fs) f Ht Hs (or_introl eq_refl)) as (p & sq & w & i & d & u & Ei & Hp & Hw & Hi & _).
    assert (X := promoted_type H _ _ _ _ _ _ _ Hp Hi Hw). destruct (p ++ [i]) as [|i0 p0] eqn:Ep; [destruct p; discriminate|].
    cbn [type_by_index] in X. rewrite Hu in X. rewrite Hn in X. destruct i0; discriminate X.
  Qed.

  Lemma struct_doc n t ca q vs fs0 out : plain H t ca -> under E t = TStruct fs0 -> held H m (t, ca, q, VStruct vs) -> all_sound (t, ca, q, VStruct vs) ->
    vstruct H o rec n t ca (VStruct vs) = VRet out None -> exists j, Doc t ca q (VStruct vs) j /\ J j out.
  Proof.
    intros Hp Hu Hh Ha Hr. assert (Ht := proj1 Hh). unfold vstruct in Hr.
    assert (Go : match structFields H n t with Some fs => vfields H o rec t ca (VStruct vs) fs true [] | None => VFuel end = VRet out None ->
      exists j, Doc t ca q (VStruct vs) j /\ J j out).
    { destruct (structFields H n t) as [fs|] eqn:Es; [|discriminate]. intros Hr'.
      destruct (fields_doc t ca q vs n fs fs0 Hp Hu Ht Es Hh Ha fs [] true [] out eq_refl (fun _ => Forall_nil _) Hr') as (ms & kvs & A1 & A2 & ->).
      exists (JObj ms). split; [eapply D_struct; eauto | apply json_members; exact A2]. }
    destruct (fields_of H t) eqn:Ef; [|exact (Go Hr)]. injection Hr as <-.
    destruct (ok_fields _ _ OK t Ht) as (k & fs & Hk). assert (fs = []) by (eapply no_fields; eauto). subst fs.
    exists (JObj []). split; [eapply D_struct; eauto; constructor | apply (j_obj0 no_ws lax []); reflexivity].
  Qed.

  Lemma kind_doc n t ca q v out : plain H t ca -> held H m (t, ca, q, v) -> all_sound (t, ca, q, v) ->
    vkind H o rec n t ca q v = VRet out None -> exists j, Doc t ca q v j /\ J j out.
  Proof.
    intros Hp Hh Ha Hr. assert (Hs := sound_plain _ _ _ _ (proj1 Hp) (all_sound_here _ Ha)). rewrite (proj2 Hp) in Hs.
    assert (Ch : forall y, child H o (t, ca, q, v) y -> held H m y /\ all_sound y).
    { intros y Hc. split; [eapply child_held; eauto | eapply all_sound_child; eauto]. }
    destruct Hh as (Ht & l & Hrp). unfold vkind in Hr.
    assert (Ba : under E t = TBool \/ under E t = TString \/ (exists k, under E t = TInt k) \/ (exists b, under E t = TFloat b) -> isBasicType E t = true).
    { unfold isBasicType, isBoolean, isString, isFloatingPoint, isInteger. intros [Hx|[Hx|[(? & Hx)|(? & Hx)]]]; rewrite Hx; reflexivity. }
    destruct (under E t) eqn:Eu; try discriminate Hr.
    - destruct v; try discriminate Hr. apply (scalar_quote t ca q (VBool b) (JBool b) (encode_bool b [])); auto.
      + apply D_bool; auto. + destruct b; constructor. + destruct b; repeat constructor; lia.
    - destruct v; try discriminate Hr. destruct (inv_int _ _ _ _ _ Hrp) as (k' & Hk & _ & Hrg). rewrite Eu in Hk. injection Hk as <-.
      destruct (encode_int_spec k n0 [] Hrg) as (s & Es & Hs'). cbn [app] in Es. rewrite Es in Hr.
      apply (scalar_quote t ca q (VInt n0) (JNum s) s); auto.
      + apply Ba. eauto. + eapply D_int; eauto. + apply j_num. eapply int_lit_jnumber; eauto. + apply jnumber_pchar. eapply int_lit_jnumber; eauto.
    - destruct v; try discriminate Hr. destruct (appendFloat (h_shortest H) [] f is64) as [b [e|]| |] eqn:Ef; cbn [lift] in Hr; try (destruct q; discriminate Hr).
      destruct (float_doc _ _ _ _ SH Ef) as [F1 F2].
      apply (scalar_quote t ca q (VFloat f) (JNum b) b); auto.
      + apply Ba. eauto 6. + eapply D_float; eauto. + apply j_num; exact F2. + apply jnumber_pchar; exact F2.
    - destruct v; try discriminate Hr. destruct (inv_str _ _ _ _ _ Hrp) as (_ & _ & Hb). destruct q; injection Hr as <-.
      + apply quoted_string_doc; auto.
      + destruct (string_units_total s Hb) as (us & Hus). exists (JStr us). split; [apply D_str; auto | apply string_doc; auto].
    - destruct v; try discriminate Hr.
      + injection Hr as <-. exists JNull. split; [eapply D_nil_iface; eauto | constructor].
      + destruct methods; [discriminate|]. apply vany_rec in Hr. destruct (Ch _ (ch_iface H o t ca q t0 v Hp Eu)) as [C1 C2].
        destruct (IH _ _ _ _ _ C1 C2 Hr) as (j & Dj & Jj). exists j. split; [eapply D_iface; eauto | exact Jj].
    - destruct v; try discriminate Hr.
      + injection Hr as <-. exists JNull. split; [eapply D_nil_ptr; eauto | constructor].
      + destruct (Ch _ (ch_ptr H o t ca q _ v Hp Eu)) as [C1 C2]. destruct (IH _ _ _ _ _ C1 C2 Hr) as (j & Dj & Jj).
        exists j. split; [eapply D_ptr; eauto | exact Jj].
    - destruct v; try discriminate Hr.
      + assert (X : out = if opt nilSliceEmpty then [91; 93] else l_null).
        { destruct (byte_elem H t0) eqn:Eb; injection Hr as <-; [rewrite (Hs eq_refl)|]; reflexivity. }
        eexists. split; [eapply D_nil_slice; eauto|]. rewrite X. destruct (opt nilSliceEmpty); [apply (j_arr0 no_ws lax []); reflexivity | constructor].
      + destruct (byte_elem H t0) eqn:Eb.
        * destruct (vbytes vs) as [b|] eqn:Evb; [|discriminate]. injection Hr as <-.
          assert (Hb : bytes_ok b) by (eapply vbytes_ok; eauto; apply byte_elem_under; exact Eb).
          cbn [encode_byte_slice]. destruct (opt rawByteSlice) eqn:Er.
          -- destruct (string_units_total b Hb) as (us & Hus). exists (JStr us). split; [eapply D_rawbytes; eauto | apply string_doc; auto].
          -- assert (B := base64_correct b Hb). destruct (plain_string (base64 b)) as (us & Hus & Hj); [apply plain_ascii; eapply base64_pchar; eauto|].
             exists (JStr us). split; [eapply D_base64; eauto | apply to_lax; exact Hj].
        * apply velems_ret in Hr. destruct Hr as (bs & Hf & ->). destruct (elems_doc t0 true vs bs) as (js & D1 & J1); [|exact Hf|].
          -- intros v Hv. apply Ch. eapply ch_slice; eauto.
          -- exists (JArr js). split; [eapply D_slice; eauto | apply json_join; exact J1].
    - destruct v; try discriminate Hr. destruct (byte_elem H t0 && opt byteArrayAsString) eqn:Eb.
      + destruct (vbytes vs) as [b|] eqn:Evb; [|discriminate]. injection Hr as <-. apply andb_prop in Eb. destruct Eb as [Eb1 Eb2].
        assert (Hb : bytes_ok b) by (eapply vbytes_arr_ok; eauto; apply byte_elem_under; exact Eb1).
        destruct (string_units_total b Hb) as (us & Hus). exists (JStr us). split; [eapply D_bytearray; eauto | apply string_doc; auto].
      + apply velems_ret in Hr. destruct Hr as (bs & Hf & ->). destruct (elems_doc t0 ca vs bs) as (js & D1 & J1); [|exact Hf|].
        * intros v Hv. apply Ch. eapply ch_array; eauto.
        * exists (JArr js). split; [eapply D_array; eauto | apply json_join; exact J1].
    - destruct (key_ok H t0_1) eqn:Ek; cbn [negb] in Hr; [|discriminate].
      destruct v; try discriminate Hr.
      + injection Hr as <-. eexists. split; [eapply D_nil_map; eauto|]. destruct (opt nilMapEmpty); [apply (j_obj0 no_ws lax []); reflexivity | constructor].
      + destruct es as [|e es].
        { injection Hr as <-. exists (JObj []). split; [eapply D_map; eauto; constructor | apply (j_obj0 no_ws lax []); reflexivity]. }
        destruct (ventries_ret H o _ out SO Hr) as (kvs & kvs' & Hg & Hpm & -> & _).
        destruct (entries_doc t0_1 t0_2 (e :: es) kvs Ek) as (ms & Dm & Jm); [|exact Hg|].
        * intros k v Hi. destruct (Ch _ (ch_elem H o t ca q _ _ _ _ _ Hp Eu Ek Hi)) as [C1 C2].
          destruct (inv_map _ _ _ _ _ Hrp) as (k0 & e0 & a & addrs & Q1 & _ & _ & _ & Q5 & Q6). rewrite Eu in Q1. injection Q1 as <- <-.
          assert (G := under_ok H (ok_wf _ _ OK) t Ht). rewrite Eu in G.
          repeat split; auto.
          -- apply G.
          -- destruct (In_nth_error _ _ Hi) as [i Hn]. destruct (nth_error addrs i) as [[ka va]|] eqn:Ea.
             2:{ apply nth_error_None in Ea. assert (i < length (e :: es))%nat by (apply nth_error_Some; congruence). lia. }
             exists (LMem ka). apply (Q6 _ _ _ _ _ Ea Hn).
          -- apply G.
          -- apply C1.
          -- eapply Hs; eauto.
          -- intros X1 X2. apply (Ch _ (ch_key H o t ca q _ _ _ _ _ Hp Eu Ek Hi X1 X2)).
        * destruct (Forall2_permute _ _ _ _ Jm Hpm) as (ms' & P1 & P2). exists (JObj ms'). split; [eapply D_map; eauto | apply json_members; exact P2].
    - destruct v; try discriminate Hr. eapply struct_doc; eauto. split; eauto.
  Qed.

  Lemma native_doc n t ca q v out : native t = true -> held H m (t, ca, q, v) -> all_sound (t, ca, q, v) ->
    vnative H o rec n t v = VRet out None -> exists j, Doc t ca q v j /\ J j out.
  Proof.
    intros Hn Hh Ha Hr. assert (Hs := all_sound_here _ Ha).
    assert (Ch : forall y, child H o (t, ca, q, v) y -> held H m y /\ all_sound y).
    { intros y Hc. split; [eapply child_held; eauto | eapply all_sound_child; eauto]. }
    destruct Hh as (Ht & l & Hrp). destruct t; try discriminate Hn; cbn [vnative] in Hr; destruct v; try discriminate Hr; cbn [sound_node] in Hs.
    - apply lift_ret in Hr. destruct (inv_time _ _ _ _ _ Hrp) as (_ & _ & Hg). eapply time_doc; eauto.
    - apply lift_ret in Hr. subst q. destruct (inv_int _ _ _ _ _ Hrp) as (k & Hk & _ & Hrg). cbn [under] in Hk. injection Hk as <-.
      eapply duration_doc; eauto. 
    - apply lift_ret in Hr. destruct Hs as [-> Hs]. eapply number_doc; eauto.
    - apply lift_ret in Hr. cbn [encode_raw_message app] in Hr. injection Hr as <-. exists JNull. split; [apply D_raw_nil | constructor].
    - destruct (vbytes vs) as [b|] eqn:Eb; [|discriminate]. apply lift_ret in Hr. eapply raw_doc; eauto.
      eapply (vbytes_ok H m l TRawMessage (TInt KUint8)); eauto.
    - destruct (ventries_ret H o _ out SO Hr) as (kvs & kvs' & Hg & Hpm & -> & _).
      destruct (sync_doc n es kvs) as (ms & Dm & Jm); [| |exact Hg|].
      + intros kt k v Hi. destruct (Hs kt k v Hi) as [S1 S2]. split; [|split; [exact S1|split; [exact S2|]]].
        * destruct (inv_sync _ _ _ _ _ Hrp) as (_ & efs & Q1 & Q2 & Q3). destruct (In_nth_error _ _ Hi) as [j Hj]. destruct (nth_error efs j) as [[ka va]|] eqn:Ej.
          2:{ apply nth_error_None in Ej. assert (j < length es)%nat by (apply nth_error_Some; congruence). lia. }
          destruct (Q3 _ _ _ _ _ Ej Hj) as [W1 W2]. eapply any_held; eauto.
        * intros X1 X2. apply (Ch _ (ch_skey H o ca q es kt k v Hi X1 X2)).
      + intros vt k v Hi. apply (Ch _ (ch_sval H o ca q es k vt v Hi)).
      + destruct (Forall2_permute _ _ _ _ Jm Hpm) as (ms' & P1 & P2). exists (JObj ms'). split; [eapply D_sync; eauto | apply json_members; exact P2].
  Qed.
  End Rec.

  Theorem venc_doc n : forall t ca q v out, held H m (t, ca, q, v) -> all_sound (t, ca, q, v) -> venc H vcall o n t ca q v = VRet out None ->
    exists j, Doc t ca q v j /\ J j out.
  Proof.
    induction n as [|n IH]; intros t ca q v out Hh Ha Hr; [discriminate|]. cbn [venc] in Hr. destruct (native t) eqn:En.
    - eapply native_doc; eauto.
    - destruct (method_of H t ca) as [[k hp]|] eqn:Em.
      + eapply marshaler_doc; eauto. apply all_sound_here. exact Ha.
      + eapply kind_doc; eauto. split; assumption.
  Qed.
End Sound.
