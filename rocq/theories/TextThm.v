(** The bytes of a document, part by part: a property of texts that holds of
    what the code writes itself, and of the results of user code, holds of
    every document. *)
From Coq Require Import Permutation.
From Verif Require Import Base Utf8 NumberModel NumberProof IntModel JsonSpec OptionsModel EscapeModel EscapeProof JsonParse CompactModel CompactProof IntProof
  BufModel DurationModel DurationProof TypesModel TypesFacts TagsModel TagsProof
  TimeModel TimeProof FloatModel FloatProof LeafModel LeafProof MemModel FieldsSpec FieldsModel FieldsProof FieldsThm Base64Model InstrModel ExecModel ValueModel
  ExecMono ExecProof VencFacts Base64Proof DocSpec EntriesFacts DocLeaf PartFacts DocProof.

(** Characters that need no care anywhere. *)
Definition safe_rune (r : Z) : Prop := 0x20 <= r /\ r <> 0x2028 /\ r <> 0x2029 /\ r <> 60 /\ r <> 62 /\ r <> 38.
Definition safe_text (s : bytes) : Prop := exists rs, utf8_string s rs /\ Forall safe_rune rs.
Definition safe_char (c : Z) : Prop := 0x20 <= c < 0x80 /\ c <> 60 /\ c <> 62 /\ c <> 38.

Lemma safe_chars s : Forall safe_char s -> safe_text s.
Proof.
  intros Hf. exists s. split; [apply utf8_ascii_string; eapply Forall_impl; [|exact Hf]; unfold safe_char; intros c; cbn; lia|].
  eapply Forall_impl; [|exact Hf]. unfold safe_char, safe_rune. intros c; cbn. lia.
Qed.

Lemma safe_app a b : safe_text a -> safe_text b -> safe_text (a ++ b).
Proof. intros (r1 & U1 & F1) (r2 & U2 & F2). exists (r1 ++ r2). split; [apply utf8_string_app; assumption | apply Forall_app; auto]. Qed.

Ltac safe_lit := apply safe_chars; repeat (apply Forall_cons; [unfold safe_char; lia|]); apply Forall_nil.

(** ** Scalars *)
Lemma safe_digits s : Forall digit s -> safe_text s.
Proof. intros Hf. apply safe_chars. eapply Forall_impl; [|exact Hf]. unfold digit, safe_char. intros c; cbn; lia. Qed.

Lemma safe_number s : jnumber s -> safe_text s.
Proof. intros Hn. apply safe_chars. eapply Forall_impl; [|apply jnumber_chars, Hn]. unfold numchar, digit, safe_char. intros c; cbn; lia. Qed.

Lemma safe_base64 s b : base64_text s b -> safe_text s.
Proof. intros Hb. apply safe_chars. eapply Forall_impl; [|eapply base64_text_chars; exact Hb]. unfold safe_char. intros c; cbn; lia. Qed.

Lemma safe_dunit n u : dunit n u -> safe_text n.
Proof.
  assert (P : forall s, forallb (fun c => (32 <=? c) && (c <? 128) && negb (c =? 60) && negb (c =? 62) && negb (c =? 38)) s = true -> safe_text s).
  { intros s Hs. apply safe_chars, Forall_forall. intros c Hc. rewrite forallb_forall in Hs. specialize (Hs c Hc). unfold safe_char. lia. }
  intros Hd. destruct Hd; try (apply P; reflexivity). exists [0xB5; 115]. split; [|repeat (apply Forall_cons; [unfold safe_rune; lia|]); constructor].
  change [0xC2; 0xB5; 115] with (utf8 0xB5 ++ utf8 115 ++ []). repeat (constructor; [unfold scalar; lia|]). constructor.
Qed.

Lemma safe_dterm s v : dterm s v -> safe_text s.
Proof.
  intros (a & f & name & u & (_ & Ha) & Hn & Hs & _). apply safe_dunit in Hn. apply safe_digits in Ha.
  destruct Hs as [(_ & ->)|((_ & Hf) & ->)].
  - apply safe_app; assumption.
  - apply safe_app; [assumption|]. change (46 :: f ++ name) with ([46] ++ f ++ name). apply safe_app; [safe_lit|].
    apply safe_app; [|assumption]. apply safe_digits, Hf.
Qed.

Lemma safe_duration s d : dur_text s d -> safe_text s.
Proof.
  assert (T : forall s d, dterms s d -> safe_text s).
  { clear s d. induction 1 as [s v Hs|s v t w Hs _ IH]; [eapply safe_dterm; eauto | apply safe_app; [eapply safe_dterm; eauto | exact IH]]. }
  intros [s' v Hs|s' v Hs]; [eapply T; eauto|]. change (45 :: s') with ([45] ++ s'). apply safe_app; [safe_lit | eapply T; eauto].
Qed.

(** ** Times, in any year and with any offset *)
Lemma dig_safe x k : 0 < k <= 10 -> safe_char (dig (Z.rem x k)).
Proof.
  intros Hk. assert (R : - k < Z.rem x k < k).
  { assert (B := Z.rem_bound_abs x k ltac:(lia)). lia. }
  unfold dig, u8, wrap_u. set (r := Z.rem x k) in *. clearbody r. change (2 ^ 8) with 256. unfold safe_char.
  assert (r + 48 = (r mod 256 + 48) mod 256) as <- by (rewrite Zplus_mod_idemp_l; symmetry; apply Z.mod_small; lia). lia.
Qed.

Lemma rfc_head_safe sec buf : rfc_head sec = Some buf -> exists pre, buf = pre ++ repeat 0 17 /\ length pre = 20%nat /\ Forall safe_char pre.
Proof.
  unfold rfc_head. destruct (rdnToYmd (u32 (Z.quot sec 86400))) as [[[y mo] d]|]; [|cbn; discriminate].
  assert (D10 := fun x => dig_safe x 10 ltac:(lia)). assert (D6 := fun x => dig_safe x 6 ltac:(lia)).
  set (d10 := fun x => dig (Z.rem x 10)). set (d6 := fun x => dig (Z.rem x 6)).
  repeat match goal with |- context [dig (Z.rem ?x 10)] => change (dig (Z.rem x 10)) with (d10 x) | |- context [dig (Z.rem ?x 6)] => change (dig (Z.rem x 6)) with (d6 x) end.
  cbn [put_digits]. repeat match goal with |- context [dig (Z.rem ?x 10)] => change (dig (Z.rem x 10)) with (d10 x) end.
  assert (E10 : forall x, safe_char (d10 x)) by exact D10. assert (E6 : forall x, safe_char (d6 x)) by exact D6. clearbody d10 d6.
  intros Hb. cbn in Hb. injection Hb as <-.
  match goal with |- exists pre, ?l = _ /\ _ => exists (firstn 20 l) end. cbn. split; [reflexivity|]. split; [reflexivity|].
  repeat (apply Forall_cons; [solve [apply E10 | apply E6 | unfold safe_char; lia]|]). constructor.
Qed.

Lemma zone_step_safe offset pre post : (7 <= length post)%nat -> exists z, Forall safe_char z /\
  forall dst, (do (buf, n) <- zone_step offset (pre ++ post) (length pre);
   do buf <- bset buf n 34; Some (dst ++ firstn (n + 1) buf)) = Some (dst ++ pre ++ z ++ [34]).
Proof.
  intros Hp. do 7 (destruct post as [|?p post]; [cbn in Hp; lia|]). clear Hp.
  unfold zone_step. destruct (offset =? 0) eqn:E.
  - exists [90]. split; [constructor; [unfold safe_char; lia | constructor]|]. intros dst. rewrite bset_at.
    rewrite bset_pre by (cbn [length]; lia). cbn [set_nth].
    replace (length pre + 1 + 1)%nat with (length pre + 2)%nat by lia.
    rewrite firstn_app_2. reflexivity.
  - set (q := Z.quot offset 60). set (z := if q <? 0 then - q else q). clearbody z.
    exists [if q <? 0 then 45 else 43; dig (Z.rem (Z.quot (Z.quot (Z.quot z 10) 6) 10) 10); dig (Z.rem (Z.quot (Z.quot z 10) 6) 10); 58; dig (Z.rem (Z.quot z 10) 6); dig (Z.rem z 10)].
    split; [repeat (apply Forall_cons; [solve [apply dig_safe; lia | unfold safe_char; destruct (q <? 0); lia]|]); constructor|]. intros dst.
    rewrite bset_at.
    do 5 (rewrite bset_pre by (cbn [length]; lia); cbn [set_nth]).
    rewrite bset_pre by (cbn [length]; lia); cbn [set_nth].
    replace (length pre + 6 + 1)%nat with (length pre + 7)%nat by lia.
    rewrite firstn_app_2. reflexivity.
Qed.

Lemma safe_rfc3339 g nano out : gtime_ok g -> appendRFC3339Time g [] nano = Some out -> safe_text out.
Proof.
  intros (_ & Hn & _). unfold appendRFC3339Time. cbn zeta.
  destruct (rfc_head (wrap_i 64 (wrap_i 64 (t_unix g + t_offset g) + epoch))) as [buf|] eqn:Eh; [|discriminate].
  destruct (rfc_head_safe _ _ Eh) as (pre & -> & L & F). rewrite <- L.
  destruct (frac_step_ok nano (t_nsec g) pre (repeat 0 17) Hn (repeat_length _ _)) as (sf & post' & -> & L' & S').
  destruct (zone_step_safe (t_offset g) (pre ++ sf) post' L') as (z & Fz & Ez). rewrite Ez. intros [= <-]. cbn [app]. apply safe_chars.
  rewrite <- app_assoc. apply Forall_app. split; [exact F|]. apply Forall_app. split.
  - destruct S' as [|fs c D _ _]; [constructor|]. constructor; [unfold safe_char; lia|]. eapply Forall_impl; [|exact D]. unfold digit, safe_char. intros x; cbn; lia.
  - apply Forall_app. split; [exact Fz | constructor; [unfold safe_char; lia | constructor]].
Qed.

(** ** Documents *)
(** User-supplied JSON as it is written. *)
Definition given (o : encOpts) (b : bytes) : bytes :=
  if has (o_flags o) noCompact then b else cs (negb (has (o_flags o) noHTMLEscaping)) false false b.

Section Text.
  Variable H : host.
  Variable vcall : mkind -> typ -> val -> option Z -> bytes + Z.
  Variable o : encOpts.
  Notation E := (h_env H).
  Notation opt := (has (o_flags o)).
  Notation tok := (typ_ok (h_letter H) (h_udigit H)).

  (** The texts of a node that come from elsewhere: other time layouts, numbers
      that are not checked, raw messages and the results of methods. *)
  Definition outside (x : node) (s : bytes) : Prop :=
    let '(t, ca, q, v) := x in
    match t, v with
    | TTime, VTime g => opt unixTime = false /\ o_timeLayout o <> layout_RFC3339 /\ o_timeLayout o <> layout_RFC3339Nano /\ s = h_fmt H g (o_timeLayout o)
    | TNumber, VStr n => opt noNumberValidation = true /\ s = n
    | TRawMessage, VSlice vs => exists b, vbytes vs = Some b /\ s = given o b
    | TDuration, _ | TRawMessage, _ | TNumber, _ | TTime, _ | TSyncMap, _ => False
    | _, _ =>
      exists k hp td w b, method_of H t ca = Some (k, hp) /\ receiver H t hp v td w /\ vcall k td w (ctx_of o k) = inl b /\
        s = match k with MJson => given o b | _ => b end /\
        (k = MJson -> opt noCompact = false -> exists j, json_text true j b)
    end.

  Variable P : bytes -> Prop.
  Hypothesis Papp : forall a b, P a -> P b -> P (a ++ b).
  Hypothesis Psafe : forall s, safe_text s -> P s.
  Hypothesis Pesc : forall s, bytes_ok s -> P (escaped o s).
  Hypothesis Pkey : forall name rs, key_name name rs -> Forall (fun r => r <> 0x2028 /\ r <> 0x2029) rs -> P (key_text o name).

  Hypothesis OK : host_ok H vcall.
  Hypothesis SH : shortest_ok (h_shortest H).
  Hypothesis SO : sort_ok H.
  Variable m : mem.
  Notation rp := (repr H m).

  Definition good (x : node) : Prop := forall y s, part H o x y -> outside y s -> P s.

  Lemma good_here x s : good x -> outside x s -> P s.
  Proof. intros Hx. apply Hx, part_refl. Qed.
  Lemma good_child x y : good x -> child H o x y -> good y.
  Proof. intros Hx Hc z s Hz. apply Hx. eapply part_step; eauto. Qed.

  Lemma Pchars s : Forall safe_char s -> P s.
  Proof. intros. apply Psafe, safe_chars. assumption. Qed.
  Ltac plit := apply Pchars; repeat (apply Forall_cons; [unfold safe_char; lia|]); apply Forall_nil.

  Lemma Pcons c s : safe_char c -> P s -> P (c :: s).
  Proof. intros Hc Hs. change (c :: s) with ([c] ++ s). apply Papp; [apply Pchars; constructor; [exact Hc | constructor] | exact Hs]. Qed.
  Ltac pcons := apply Pcons; [unfold safe_char; lia|].
  Ltac papp := apply Papp; [|].

  Lemma Pquote b : P b -> P (34 :: b ++ [34]).
  Proof. intros Hb. pcons. apply Papp; [exact Hb | plit]. Qed.
  Lemma Pstring s : bytes_ok s -> P (encode_string [] s o).
  Proof. intros Hb. rewrite encode_string_body by exact Hb. apply Pquote, Pesc, Hb. Qed.
  Lemma Pqstring s : bytes_ok s -> P (encode_quoted_string [] s o).
  Proof.
    intros Hb. unfold encode_quoted_string. rewrite appendEscapedBytes_app by exact Hb. cbn [app]. apply Papp; [apply Papp; [plit | apply Pesc, Hb] | plit].
  Qed.
  Lemma Pnull : P l_null. Proof. plit. Qed.

  Lemma Pelems bs : Forall P bs -> forall first, P (join_elems first bs).
  Proof.
    induction 1 as [|b bs Hb _ IH]; intros first; cbn [join_elems].
    - destruct first; plit.
    - destruct first; (pcons; apply Papp; [exact Hb | apply IH]).
  Qed.

  Definition Pmember (kv : member) : Prop := P (fst kv) /\ P (snd kv).
  Lemma Pmembers kvs : Forall Pmember kvs -> P (join_members kvs).
  Proof.
    induction 1 as [|kv kvs [K V] Hf IH]; [apply Pchars; constructor|]. rewrite join_members_cons. apply Papp.
    - unfold member_text. apply Papp; [exact K|]. apply Pcons; [unfold safe_char; lia | exact V].
    - destruct kvs as [|kv' kvs]; [apply Pchars; constructor|]. cbn [tail_members]. pcons. exact IH.
  Qed.

  (** Methods *)
  Lemma method_text k t td w out : vmethod vcall o k t td w = VRet out None ->
    exists b, vcall k td w (ctx_of o k) = inl b /\ (k = MJson -> opt noCompact = false -> exists j, json_text true j b) /\
      (P (match k with MJson => given o b | _ => b end) -> P out).
  Proof.
    destruct k; cbn [vmethod ctx_of].
    - destruct (vcall MCtx td w (o_ctx o)) as [b|e] eqn:Ec; [|discriminate]. intros [= <-]. exists b. split; [reflexivity|]. split; [discriminate | auto].
    - destruct (vcall MApp td w None) as [b|e] eqn:Ec; [|discriminate]. intros [= <-]. exists b. split; [reflexivity|]. split; [discriminate | auto].
    - intros Hr. apply lift_ret in Hr. destruct (vcall MJson td w None) as [b|e] eqn:Ec; [|discriminate Hr]. exists b. split; [reflexivity|].
      assert (Hb := ok_bytes _ _ OK _ _ _ _ _ Ec). cbn [encode_json_result] in Hr. unfold given. destruct (opt noCompact) eqn:En.
      + injection Hr as <-. split; [discriminate | auto].
      + destruct (json_valid b) eqn:Ev; cbn [negb] in Hr; [|discriminate]. injection Hr as <-. rewrite appendCompactJSON_spec by exact Hb.
        split; [intros _ _; apply json_valid_correct; assumption | auto].
    - intros Hr. apply lift_ret in Hr. destruct (vcall MText td w None) as [b|e] eqn:Ec; [|discriminate Hr]. exists b. split; [reflexivity|].
      cbn [encode_text_result app] in Hr. injection Hr as <-. split; [discriminate|]. intros Hp. apply Pquote, Hp.
  Qed.

  Lemma marshaler_text n k t ca q hp v out : native t = false -> method_of H t ca = Some (k, hp) -> good (t, ca, q, v) ->
    vmarshaler H vcall o n k t hp v = VRet out None -> P out.
  Proof.
    intros Hn Hm Hs Hr.
    assert (Go : forall t' td w, receiver H t hp v td w -> vmethod vcall o k t' td w = VRet out None -> P out).
    { intros t' td w Hrc Hv. destruct (method_text _ _ _ _ _ Hv) as (b & Hc & Hw & Hj). apply Hj, (good_here _ _ Hs).
      destruct t; try discriminate Hn; exists k, hp, td, w, b; auto. }
    unfold vmarshaler in Hr. destruct hp; [exact (Go _ _ _ (rc_addr H t v) Hr)|].
    destruct (under E t) eqn:Eu;
    try (destruct (is_direct H n t) as [[|]|]; [discriminate | | discriminate]; refine (Go _ _ _ (rc_val H t v _ _) Hr);
         [unfold is_iface; rewrite Eu; reflexivity | unfold is_ptr; rewrite Eu; discriminate]).
    - destruct v; try discriminate; [injection Hr as <-; apply Pnull|]. exact (Go _ _ _ (rc_dyn H t _ _ _ Eu) Hr).
    - destruct v; try discriminate; [injection Hr as <-; apply Pnull|].
      refine (Go _ _ _ (rc_val H t _ _ _) Hr); [unfold is_iface; rewrite Eu; reflexivity | discriminate].
  Qed.

  (** Scalars *)
  Lemma Pint n : P (append_int [] n).
  Proof. destruct (int_doc n) as [_ Hj]. inversion Hj; subst. apply Psafe, safe_number. assumption. Qed.
  Lemma Pfloat b f out : appendFloat (h_shortest H) [] f b = Ret out None -> P out.
  Proof. intros Hr. apply Psafe, safe_number. eapply float_doc; eauto. Qed.

  Lemma time_text g ca q out : gtime_ok g -> good (TTime, ca, q, VTime g) -> encode_time (h_fmt H) g [] o = Ret out None -> P out.
  Proof.
    intros Hg Hs. unfold encode_time. destruct ((time_year g <? 0) || (10000 <=? time_year g)); [discriminate|].
    destruct (opt unixTime) eqn:Eu; [intros [= <-]; apply Pint|].
    assert (Rfc : forall nano : bool, ret_opt (appendRFC3339Time g [] nano) = Ret out None -> P out).
    { intros nano Hr. destruct (appendRFC3339Time g [] nano) as [b|] eqn:Ea; [|discriminate]. injection Hr as <-. apply Psafe. eapply safe_rfc3339; eauto. }
    destruct (bytes_eqb (o_timeLayout o) layout_RFC3339) eqn:E1; [apply Rfc|].
    destruct (bytes_eqb (o_timeLayout o) layout_RFC3339Nano) eqn:E2; [apply Rfc|].
    intros [= <-]. apply Pquote. apply (good_here _ _ Hs). cbn [outside]. split; [exact Eu|].
    split; [intros X; rewrite X, bytes_eqb_refl in E1; discriminate|]. split; [intros X; rewrite X, bytes_eqb_refl in E2; discriminate | reflexivity].
  Qed.

  Lemma duration_text d out : - 2 ^ 63 <= d < 2 ^ 63 -> encode_duration (h_shortest H) (h_tofloat H) d [] o = Ret out None -> P out.
  Proof.
    intros Hd. unfold encode_duration. destruct (o_durationFmt o =? DurationMinutes); [apply Pfloat|]. destruct (o_durationFmt o =? DurationSeconds); [apply Pfloat|].
    destruct (o_durationFmt o =? DurationMicroseconds); [intros [= <-]; apply Pint|]. destruct (o_durationFmt o =? DurationMilliseconds); [intros [= <-]; apply Pint|].
    destruct (o_durationFmt o =? DurationString); [|intros [= <-]; apply Pint].
    destruct (append_duration ([] ++ [34]) d) as [r|] eqn:Ea; [|discriminate]. intros [= <-].
    destruct (append_duration_spec ([] ++ [34]) d Hd) as (s & Es & Hs). rewrite Ea in Es. injection Es as ->.
    cbn [app]. apply Pquote, Psafe. eapply safe_duration; eauto.
  Qed.

  Lemma number_text s ca q out : good (TNumber, ca, q, VStr s) -> encode_number s [] o = Ret out None -> P out.
  Proof.
    intros Hs. unfold encode_number. set (num := match s with [] => [48] | _ => s end). intros Hr.
    destruct (opt noNumberValidation) eqn:En; cbn [negb andb] in Hr.
    - injection Hr as <-. cbn [app]. unfold num. destruct s; [plit|]. apply (good_here _ _ Hs). cbn [outside]. auto.
    - destruct (is_valid_number num) eqn:Ev; cbn [negb] in Hr; [|discriminate]. injection Hr as <-. apply Psafe, safe_number. apply is_valid_number_correct. exact Ev.
  Qed.

  Lemma scalar_text q b out : P b -> vquote_if q (VRet b None) = VRet out None -> P out.
  Proof. intros Hb Hq. destruct q; cbn [vquote_if vquote] in Hq; injection Hq as <-; [apply Pquote|]; exact Hb. Qed.

  Section Rec.
  Variable rec : typ -> bool -> bool -> val -> vres.
  Hypothesis IH : forall t ca q v out, held H m (t, ca, q, v) -> good (t, ca, q, v) -> rec t ca q v = VRet out None -> P out.

  Lemma elems_text e ca vs bs : (forall v, In v vs -> held H m (e, ca, false, v) /\ good (e, ca, false, v)) ->
    Forall2 (fun v b => rec e ca false v = VRet b None) vs bs -> Forall P bs.
  Proof.
    intros Hv Hf. induction Hf as [|v b vs bs Hr Hf IHf]; constructor.
    - destruct (Hv v (or_introl eq_refl)) as [Hh Hs]. exact (IH _ _ _ _ _ Hh Hs Hr).
    - apply IHf. intros; apply Hv; right; assumption.
  Qed.

  Lemma Pquote_if (q : bool) r out : (forall b, r = VRet b None -> P b) -> vquote_if q r = VRet out None -> P out.
  Proof. intros Hp Hq. destruct q; cbn [vquote_if] in Hq; [|auto]. apply vquote_ret in Hq. destruct Hq as (b & Hr & ->). apply Pquote, Hp, Hr. Qed.

  Lemma entries_text kt et es kvs :
    (forall k v, In (k, v) es -> held H m (kt, false, false, k) /\ held H m (et, false, false, v) /\ good (et, false, false, v) /\
       (isString E kt = false -> (h_impl H kt MText && is_ptr H kt && vnil k) = false -> good (kt, false, false, k))) ->
    Forall2 gives (map (fun kv => (vkey H o rec kt (fst kv), rec et false false (snd kv))) es) kvs -> Forall Pmember kvs.
  Proof.
    revert kvs. induction es as [|[k v] es IHe]; intros kvs Hes Hf; cbn [map] in Hf.
    - inversion Hf; subst. constructor.
    - inversion Hf as [|? [kb vb] ? kvs' Hg Hf']; subst. destruct Hg as [G1 G2]. cbn [fst snd] in G1, G2.
      destruct (Hes k v (or_introl eq_refl)) as (Hh1 & Hh2 & Hs2 & Hs1).
      constructor; [|apply IHe; [intros; apply Hes; right; assumption | exact Hf']]. split; cbn [fst snd]; [|exact (IH _ _ _ _ _ Hh2 Hs2 G2)].
      unfold vkey in G1. destruct (isString E kt) eqn:Es.
      + destruct k; try discriminate G1. destruct Hh1 as (_ & l & Hl). injection G1 as <-. apply Pstring. eapply held_string; eauto.
      + destruct (h_impl H kt MText && is_ptr H kt && vnil k) eqn:En; [injection G1 as <-; plit|].
        eapply Pquote_if; [|exact G1]. intros b Hb. exact (IH _ _ _ _ _ Hh1 (Hs1 eq_refl eq_refl) Hb).
  Qed.

  Lemma sync_text n es kvs :
    (forall kt k v, In (VIface kt k, v) es -> held H m (kt, is_ptr H kt, false, k) /\
       (isString E kt = false -> (isInteger E kt || h_impl H kt MText) = true -> good (kt, is_ptr H kt, false, k))) ->
    (forall vt k v, In (k, VIface vt v) es -> held H m (vt, is_ptr H vt, false, v) /\ good (vt, is_ptr H vt, false, v)) ->
    Forall2 gives (map (fun kv => (vsync_key H o rec n (fst kv), vsync_val H rec n (snd kv))) es) kvs -> Forall Pmember kvs.
  Proof.
    revert kvs. induction es as [|[k v] es IHe]; intros kvs Hes Hvs Hf; cbn [map] in Hf.
    - inversion Hf; subst. constructor.
    - inversion Hf as [|? [kb vb] ? kvs' Hg Hf']; subst. destruct Hg as [G1 G2]. cbn [fst snd] in G1, G2.
      constructor; [|apply IHe; [intros; eapply Hes; right; eassumption | intros; eapply Hvs; right; eassumption | exact Hf']].
      destruct v as [| | | | | |vt v| | | | | | |]; try discriminate G2. cbn [vsync_val] in G2. apply vany_rec in G2.
      destruct (Hvs vt k v (or_introl eq_refl)) as (Hh2 & Hs2). split; cbn [fst snd]; [|exact (IH _ _ _ _ _ Hh2 Hs2 G2)].
      destruct k as [| | | | | |kt k| | | | | | |]; try discriminate G1. cbn [vsync_key] in G1.
      destruct (Hes kt k _ (or_introl eq_refl)) as (Hh1 & Hs1).
      destruct (isString E kt) eqn:Es; cbn [negb andb] in G1.
      + destruct k; try discriminate G1. destruct Hh1 as (_ & l & Hl). injection G1 as <-. apply Pstring. eapply held_string; eauto.
      + destruct (negb (isInteger E kt) && negb (h_impl H kt MText)) eqn:Ek; [discriminate|].
        assert (Hk : (isInteger E kt || h_impl H kt MText) = true) by (destruct (isInteger E kt), (h_impl H kt MText); auto).
        eapply Pquote_if; [|exact G1]. intros b Hb. apply vany_rec in Hb. exact (IH _ _ _ _ _ Hh1 (Hs1 eq_refl Hk) Hb).
  Qed.

  Lemma field_key k t fs f : tok t -> structFields H k t = Some fs -> In f fs -> P (key_text o (f_name f)).
  Proof.
    intros Ht Hs Hf. destruct (structFields_data H (ok_wf _ _ OK) t Ht k fs f Hs Hf) as (p & sq & w & i & v & opts & A1 & A2 & A3 & _).
    destruct (wf_tables _ (ok_wf _ _ OK)) as (_ & _ & HT).
    destruct A3 as (fs' & d & n & B1 & B2 & _ & _ & [((Hn & rs & Hu & Hr) & -> & _)|(_ & -> & _)]).
    - apply (Pkey n rs).
      + split; [exact Hn|]. split; [exact Hu|]. eapply Forall_impl; [|exact Hr]. intros r (Hsc & [C|C]).
        * destruct (valid_chars_ascii r C) as (? & ? & ?). unfold key_rune. repeat split; auto; lia.
        * destruct (HT r C) as (? & ? & ? & _). unfold key_rune. repeat split; auto; lia.
      + eapply Forall_impl; [|exact Hr]. intros r (Hsc & [C|C]).
        * destruct (valid_chars_ascii r C) as (? & ? & ?). lia.
        * destruct (HT r C) as (_ & _ & _ & ? & ? & _). auto.
    - assert (Hw : tok w) by (eapply path_ok; eauto; apply (ok_wf _ _ OK)). assert (Gw := under_ok H (ok_wf _ _ OK) w Hw). unfold struct_of in B1. rewrite B1 in Gw.
      apply typ_ok_struct in Gw. rewrite Forall_forall in Gw. specialize (Gw _ (nth_error_In _ _ B2)). cbn [fst snd] in Gw. destruct Gw as (_ & (Hn & rs & Hu & Hi) & _).
      apply (Pkey _ rs).
      + split; [exact Hn|]. split; [exact Hu|]. eapply Forall_impl; [|exact Hi]. intros r (Hsc & Hr). unfold key_rune.
        assert (HT' := HT r). split; [exact Hsc|]. destruct Hr as [->|[C|[C|[C|[C|C]]]]]; try lia;
          [destruct (HT' (or_introl C)) as (? & ? & ? & _) | destruct (HT' (or_intror C)) as (? & ? & ? & _)]; auto.
      + eapply Forall_impl; [|exact Hi]. intros r (Hsc & Hr). assert (HT' := HT r). destruct Hr as [->|[C|[C|[C|[C|C]]]]]; try lia;
          [destruct (HT' (or_introl C)) as (_ & _ & _ & ? & ? & _) | destruct (HT' (or_intror C)) as (_ & _ & _ & ? & ? & _)]; auto.
  Qed.

  Lemma fields_text t ca q vs k all fs0 : plain H t ca -> under E t = TStruct fs0 -> tok t -> structFields H k t = Some all ->
    held H m (t, ca, q, VStruct vs) -> good (t, ca, q, VStruct vs) ->
    forall fs first out0 out, incl fs all -> P out0 -> vfields H o rec t ca (VStruct vs) fs first out0 = VRet out None -> P out.
  Proof.
    intros Hp Hu Ht Hs Hh Ha. induction fs as [|f fs IHf]; intros first out0 out Hall P0 Hr; cbn [vfields] in Hr.
    { destruct first; injection Hr as <-; (apply Papp; [exact P0 | plit]). }
    assert (Hin : In f all) by (apply Hall; left; reflexivity). assert (Hall' : incl fs all) by (intros x Hx; apply Hall; right; exact Hx).
    destruct (isDeniedField o (f_name f)) eqn:Ed; [eapply IHf; eauto|].
    assert (Nd : ~ denied o (f_name f)) by (rewrite <- isDeniedField_spec; congruence).
    destruct (negb (right_seq H t f)); [discriminate|].
    destruct (vget (f_index f) (VStruct vs)) as [[x|]|] eqn:Ev; [|eapply IHf; eauto | discriminate].
    destruct (type_by_index H t (f_index f)) as [ft|] eqn:Et; [|discriminate].
    destruct (f_omitNil f && vnil x) eqn:En; [eapply IHf; eauto|]. destruct (f_omitEmpty f && vempty x) eqn:Ee; [eapply IHf; eauto|].
    assert (Sn : shown H o t (VStruct vs) f ft x).
    { split; [exact Nd|]. split; [split; assumption|]. rewrite <- dropped_spec, En, Ee. discriminate. }
    fold (quoted H f ft) in Hr. cbn zeta in Hr.
    assert (Hc : child H o (t, ca, q, VStruct vs) (ft, ca, quoted H f ft, x)) by (eapply ch_field; eauto).
    assert (Hh' := child_held H vcall OK o m _ _ Hh Hc). assert (Ha' := good_child _ _ Ha Hc).
    destruct (rec ft ca (quoted H f ft) x) as [b [e|]| |] eqn:Er; try discriminate.
    assert (Pb := IH _ _ _ _ _ Hh' Ha' Er). assert (Pk := field_key k t all f Ht Hs Hin).
    eapply IHf; [exact Hall' | | exact Hr].
    destruct (f_omitNil f && (h_impl H ft MJson || h_impl H (TPtr ft) MJson) && tail_null b); destruct first; try exact P0.
    - apply Papp; [exact P0 | plit].
    - apply Papp; [exact P0|]. apply Papp; [plit|]. apply Papp; assumption.
    - apply Papp; [exact P0|]. apply Papp; [plit|]. apply Papp; assumption.
  Qed.

  Lemma kind_text n t ca q v out : plain H t ca -> held H m (t, ca, q, v) -> good (t, ca, q, v) -> vkind H o rec n t ca q v = VRet out None -> P out.
  Proof.
    intros Hp Hh Ha Hr.
    assert (Ch : forall y, child H o (t, ca, q, v) y -> held H m y /\ good y).
    { intros y Hc. split; [eapply child_held; eauto | eapply good_child; eauto]. }
    assert (Hh0 := Hh). destruct Hh as (Ht & l & Hrp). unfold vkind in Hr.
    destruct (under E t) eqn:Eu; try discriminate Hr.
    - destruct v; try discriminate Hr. eapply scalar_text; [|exact Hr]. destruct b; plit.
    - destruct v; try discriminate Hr. destruct (inv_int _ _ _ _ _ Hrp) as (k' & Hk & _ & Hrg). rewrite Eu in Hk. injection Hk as <-.
      destruct (encode_int_spec k n0 [] Hrg) as (s & Es & Hs'). cbn [app] in Es. rewrite Es in Hr. eapply scalar_text; [|exact Hr].
      apply Psafe, safe_number. eapply int_lit_jnumber; eauto.
    - destruct v; try discriminate Hr. destruct (appendFloat (h_shortest H) [] f is64) as [b [e|]| |] eqn:Ef; cbn [lift] in Hr; try (destruct q; discriminate Hr).
      eapply scalar_text; [|exact Hr]. eapply Pfloat; eauto.
    - destruct v; try discriminate Hr. destruct (inv_str _ _ _ _ _ Hrp) as (_ & _ & Hb). destruct q; injection Hr as <-; [apply Pqstring | apply Pstring]; exact Hb.
    - destruct v; try discriminate Hr; [injection Hr as <-; apply Pnull|].
      destruct methods; [discriminate|]. apply vany_rec in Hr. destruct (Ch _ (ch_iface H o t ca q t0 v Hp Eu)) as [C1 C2]. exact (IH _ _ _ _ _ C1 C2 Hr).
    - destruct v; try discriminate Hr; [injection Hr as <-; apply Pnull|].
      destruct (Ch _ (ch_ptr H o t ca q _ v Hp Eu)) as [C1 C2]. exact (IH _ _ _ _ _ C1 C2 Hr).
    - destruct v; try discriminate Hr.
      + destruct (byte_elem H t0); injection Hr as <-; [apply Pnull|]. destruct (opt nilSliceEmpty); [plit | apply Pnull].
      + destruct (byte_elem H t0) eqn:Eb.
        * destruct (vbytes vs) as [b|] eqn:Evb; [|discriminate]. injection Hr as <-.
          assert (Hb : bytes_ok b) by (eapply vbytes_ok; eauto; apply byte_elem_under; exact Eb).
          cbn [encode_byte_slice]. destruct (opt rawByteSlice); [apply Pstring, Hb|]. cbn [app]. apply Pquote, Psafe, (safe_base64 _ b), base64_correct, Hb.
        * apply velems_ret in Hr. destruct Hr as (bs & Hf & ->). cbn [app]. apply Pelems. eapply elems_text; [|exact Hf]. intros v Hv. apply Ch. eapply ch_slice; eauto.
    - destruct v; try discriminate Hr. destruct (byte_elem H t0 && opt byteArrayAsString) eqn:Eb.
      + destruct (vbytes vs) as [b|] eqn:Evb; [|discriminate]. injection Hr as <-. apply andb_prop in Eb. destruct Eb as [Eb1 Eb2].
        apply Pstring. eapply vbytes_arr_ok; eauto; apply byte_elem_under; exact Eb1.
      + apply velems_ret in Hr. destruct Hr as (bs & Hf & ->). cbn [app]. apply Pelems. eapply elems_text; [|exact Hf]. intros v Hv. apply Ch. eapply ch_array; eauto.
    - destruct (key_ok H t0_1) eqn:Ek; cbn [negb] in Hr; [|discriminate].
      destruct v; try discriminate Hr.
      + injection Hr as <-. destruct (opt nilMapEmpty); [plit | apply Pnull].
      + destruct es as [|e es]; [injection Hr as <-; plit|].
        destruct (ventries_ret H o _ out SO Hr) as (kvs & kvs' & Hg & Hpm & -> & _).
        pcons. apply Papp; [|plit]. apply Pmembers. eapply Permutation_Forall; [exact Hpm|]. eapply entries_text; [|exact Hg].
        intros k v Hi. destruct (Ch _ (ch_elem H o t ca q _ _ _ _ _ Hp Eu Ek Hi)) as [C1 C2].
        destruct (inv_map _ _ _ _ _ Hrp) as (k0 & e0 & a & addrs & Q1 & _ & _ & _ & Q5 & Q6). rewrite Eu in Q1. injection Q1 as <- <-.
        assert (G := under_ok H (ok_wf _ _ OK) t Ht). rewrite Eu in G. split; [split; [apply G|]|split; [exact C1|split; [exact C2|]]].
        * destruct (In_nth_error _ _ Hi) as [i Hn]. destruct (nth_error addrs i) as [[ka va]|] eqn:Ea.
          2:{ apply nth_error_None in Ea. assert (i < length (e :: es))%nat by (apply nth_error_Some; congruence). lia. }
          exists (LMem ka). apply (Q6 _ _ _ _ _ Ea Hn).
        * intros X1 X2. apply (Ch _ (ch_key H o t ca q _ _ _ _ _ Hp Eu Ek Hi X1 X2)).
    - destruct v; try discriminate Hr. unfold vstruct in Hr.
      assert (Go : match structFields H n t with Some fs => vfields H o rec t ca (VStruct vs) fs true [] | None => VFuel end = VRet out None -> P out).
      { destruct (structFields H n t) as [fs'|] eqn:Es; [|discriminate]. intros Hr'.
        eapply (fields_text t ca q vs n fs'); eauto; [apply incl_refl | apply Pchars; constructor]. }
      destruct (fields_of H t); [injection Hr as <-; plit | exact (Go Hr)].
  Qed.

  Lemma native_text n t ca q v out : native t = true -> held H m (t, ca, q, v) -> good (t, ca, q, v) -> vnative H o rec n t v = VRet out None -> P out.
  Proof.
    intros Hn Hh Ha Hr.
    assert (Ch : forall y, child H o (t, ca, q, v) y -> held H m y /\ good y).
    { intros y Hc. split; [eapply child_held; eauto | eapply good_child; eauto]. }
    destruct Hh as (Ht & l & Hrp). destruct t; try discriminate Hn; cbn [vnative] in Hr; destruct v; try discriminate Hr.
    - apply lift_ret in Hr. destruct (inv_time _ _ _ _ _ Hrp) as (_ & _ & Hg). eapply time_text; eauto.
    - apply lift_ret in Hr. destruct (inv_int _ _ _ _ _ Hrp) as (k & Hk & _ & Hrg). cbn [under] in Hk. injection Hk as <-. eapply duration_text; [exact Hrg | exact Hr].
    - apply lift_ret in Hr. eapply number_text; eauto.
    - apply lift_ret in Hr. cbn [encode_raw_message app] in Hr. injection Hr as <-. apply Pnull.
    - destruct (vbytes vs) as [b|] eqn:Eb; [|discriminate]. apply lift_ret in Hr.
      assert (Hb : bytes_ok b) by (eapply (vbytes_ok H m l TRawMessage (TInt KUint8)); eauto).
      assert (Pg : P (given o b)) by (apply (good_here _ _ Ha); exists b; auto). unfold given in Pg. cbn [encode_raw_message] in Hr.
      destruct (opt noCompact); injection Hr as <-; [exact Pg|]. rewrite appendCompactJSON_spec by exact Hb. exact Pg.
    - destruct (ventries_ret H o _ out SO Hr) as (kvs & kvs' & Hg & Hpm & -> & _).
      pcons. apply Papp; [|plit]. apply Pmembers. eapply Permutation_Forall; [exact Hpm|]. eapply sync_text; [| |exact Hg].
      + intros kt k v Hi. split.
        * destruct (inv_sync _ _ _ _ _ Hrp) as (_ & efs & Q1 & Q2 & Q3). destruct (In_nth_error _ _ Hi) as [j Hj]. destruct (nth_error efs j) as [[ka va]|] eqn:Ej.
          2:{ apply nth_error_None in Ej. assert (j < length es)%nat by (apply nth_error_Some; congruence). lia. }
          destruct (Q3 _ _ _ _ _ Ej Hj) as [W1 W2]. eapply any_held; eauto.
        * intros X1 X2. apply (Ch _ (ch_skey H o ca q es kt k v Hi X1 X2)).
      + intros vt k v Hi. apply (Ch _ (ch_sval H o ca q es k vt v Hi)).
  Qed.
  End Rec.

  Theorem venc_text n : forall t ca q v out, held H m (t, ca, q, v) -> good (t, ca, q, v) -> venc H vcall o n t ca q v = VRet out None -> P out.
  Proof.
    induction n as [|n IH]; intros t ca q v out Hh Ha Hr; [discriminate|]. cbn [venc] in Hr. destruct (native t) eqn:En.
    - eapply native_text; eauto.
    - destruct (method_of H t ca) as [[k hp]|] eqn:Em.
      + eapply marshaler_text; eauto.
      + eapply kind_text; eauto. split; assumption.
  Qed.
End Text.
