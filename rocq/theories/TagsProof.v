(** Tags and field names. *)
From Verif Require Import Base Utf8 JsonSpec EscapeModel EscapeProof CompactModel CompactProof TagsModel.

(** ** Specification *)
Definition no_comma (s : bytes) : Prop := ~ In 44 s.

(** Items separated by commas. *)
Fixpoint join (l : list bytes) : bytes :=
  match l with
  | [] => []
  | [x] => x
  | x :: l' => x ++ 44 :: join l'
  end.

(** Characters allowed in a name taken from a tag (encoding/json
    documentation): letters, digits and ASCII punctuation except quotation
    mark, backslash and comma; plus space.  (jettison's set also leaves out
    the apostrophe, the back quote and the semicolon.) *)
Definition name_rune (letter udigit : Z -> bool) (r : Z) : Prop :=
  scalar r /\ (In r valid_chars \/ letter r = true \/ udigit r = true).

Definition valid_name (letter udigit : Z -> bool) (s : bytes) : Prop :=
  s <> [] /\ exists rs, utf8_string s rs /\ Forall (name_rune letter udigit) rs.

(** What is assumed of the Unicode tables: the replacement character is
    neither letter nor digit, and no control, quote, backslash or separator
    is. *)
Definition tables_ok (letter udigit : Z -> bool) : Prop :=
  letter 0xFFFD = false /\ udigit 0xFFFD = false /\
  forall r, (letter r = true \/ udigit r = true) -> 0x20 <= r /\ r <> 34 /\ r <> 92 /\ r <> 0x2028 /\ r <> 0x2029 /\
    r <> 60 /\ r <> 62 /\ r <> 38.

(** ** parseTag *)
Lemma index_comma_none s : index_comma s = None <-> no_comma s.
Proof.
  unfold no_comma. induction s as [|c s IH]; cbn [index_comma In]; [tauto|].
  destruct (c =? 44) eqn:E.
  - split; [discriminate|]. intros H. exfalso. apply H. left. lia.
  - destruct (index_comma s); split; try discriminate.
    + intros H. exfalso. apply IH; [|discriminate]||idtac. assert (~ In 44 s) by tauto. apply IH in H0. discriminate.
    + intros _ [H|H]; [lia|]. destruct IH as [IH _]. apply IH in H; auto.
    + reflexivity.
Qed.

Lemma index_comma_some s i : index_comma s = Some i ->
  s = firstn i s ++ 44 :: skipn (i + 1) s /\ no_comma (firstn i s).
Proof.
  unfold no_comma. revert i. induction s as [|c s IH]; intros i; cbn [index_comma]; [discriminate|].
  destruct (c =? 44) eqn:E.
  - intros H. injection H as <-. cbn. split; [f_equal; lia | tauto].
  - destruct (index_comma s) as [k|]; [|discriminate]. intros H. injection H as <-.
    destruct (IH k eq_refl) as [H1 H2]. cbn [firstn skipn Nat.add app In]. split; [f_equal; exact H1|]. intros [H|H]; [lia | tauto].
Qed.

Lemma split_comma_nonempty s : split_comma s <> [].
Proof. destruct s as [|c s]; cbn; [discriminate|]. destruct (c =? 44); [discriminate|]. destruct (split_comma s); discriminate. Qed.

Lemma split_comma_join s : join (split_comma s) = s /\ Forall no_comma (split_comma s).
Proof.
  induction s as [|c s [IH1 IH2]]; cbn [split_comma].
  - split; [reflexivity | repeat constructor; intros []].
  - destruct (c =? 44) eqn:E.
    + destruct (split_comma s) as [|w ws] eqn:Es; [exfalso; eapply split_comma_nonempty; eassumption|].
      split; [cbn [join app]; f_equal; [lia | exact IH1] | constructor; [intros [] | exact IH2]].
    + destruct (split_comma s) as [|w ws] eqn:Es; [exfalso; eapply split_comma_nonempty; eassumption|].
      inversion IH2 as [|? ? Hw Hws]; subst. split.
      * destruct ws; cbn [join app] in *; [congruence|]. f_equal; exact IH1.
      * constructor; [|assumption]. intros [H|H]; [lia | exact (Hw H)].
Qed.

Lemma join_inj l1 l2 : Forall no_comma l1 -> Forall no_comma l2 -> l1 <> [] -> l2 <> [] -> join l1 = join l2 -> l1 = l2.
Proof.
  assert (P : forall a b x y, no_comma a -> no_comma b -> a ++ 44 :: x = b ++ 44 :: y -> a = b /\ x = y).
  { induction a as [|c a IH]; intros b x y Ha Hb E.
    - destruct b as [|d b]; [injection E; auto|]. injection E as <- _. exfalso. apply Hb. left. reflexivity.
    - destruct b as [|d b]; cbn in E; injection E as E1 E2; [exfalso; apply Ha; left; assumption|].
      subst. edestruct (IH b x y) as [-> ->]; [| |exact E2|auto]; intros H; [apply Ha | apply Hb]; right; exact H. }
  assert (Q : forall a b x, no_comma a -> a <> b ++ 44 :: x).
  { intros a b x Ha ->. apply Ha. apply in_or_app. right. left. reflexivity. }
  revert l2. induction l1 as [|a l1 IH]; intros l2 H1 H2 N1 N2 E; [congruence|].
  destruct l2 as [|b l2]; [congruence|]. inversion H1 as [|? ? Ha Hl1]; inversion H2 as [|? ? Hb Hl2]; subst.
  destruct l1 as [|a' l1], l2 as [|b' l2].
  - cbn in E. congruence.
  - cbn [join] in E. exfalso. eapply Q; [|exact E]. assumption.
  - cbn [join] in E. exfalso. eapply Q; [|symmetry; exact E]. assumption.
  - change (a ++ 44 :: join (a' :: l1) = b ++ 44 :: join (b' :: l2)) in E.
    destruct (P _ _ _ _ Ha Hb E) as [-> E']. f_equal. apply IH; try assumption; discriminate.
Qed.

(** The name and the options are the comma separated items of the tag. *)
Lemma parse_tag_spec tag name opts :
  parse_tag tag = (name, opts) <-> tag = join (name :: opts) /\ no_comma name /\ Forall no_comma opts.
Proof.
  assert (S : let '(n, o) := parse_tag tag in tag = join (n :: o) /\ no_comma n /\ Forall no_comma o).
  { unfold parse_tag. destruct (index_comma tag) as [i|] eqn:E.
    - destruct (index_comma_some _ _ E) as [H1 H2]. destruct (split_comma_join (skipn (i + 1) tag)) as [J1 J2].
      split; [|split; assumption]. rewrite H1 at 1. cbn [join].
      destruct (split_comma (skipn (i + 1) tag)) eqn:Es; [exfalso; eapply split_comma_nonempty; eassumption|].
      rewrite J1. reflexivity.
    - apply index_comma_none in E. split; [reflexivity | split; [assumption | constructor]]. }
  destruct (parse_tag tag) as [n o]. destruct S as (S1 & S2 & S3). split.
  - intros H. injection H as <- <-. auto.
  - intros (H1 & H2 & H3). assert (n :: o = name :: opts) as X.
    { apply join_inj; try (constructor; assumption); try discriminate. congruence. }
    injection X as -> ->. reflexivity.
Qed.

Lemma tag_contains_spec opts x : tag_contains opts x = true <-> In x opts.
Proof.
  unfold tag_contains. rewrite existsb_exists. split.
  - intros (y & Hy & E). apply bytes_eqb_eq in E. congruence.
  - intros H. exists x. split; [assumption | apply bytes_eqb_refl].
Qed.

(** ** isValidFieldName *)
Lemma existsb_In c l : existsb (Z.eqb c) l = true <-> In c l.
Proof. rewrite existsb_exists. split; [intros (x & H & E); apply Z.eqb_eq in E; congruence | intros H; exists c; split; [assumption | apply Z.eqb_refl]]. Qed.

Lemma valid_chars_ascii c : In c valid_chars -> 0x20 <= c < 0x80 /\ c <> 34 /\ c <> 92.
Proof.
  assert (H : Forall (fun c => 0x20 <= c < 0x80 /\ c <> 34 /\ c <> 92) valid_chars) by (unfold valid_chars; repeat (constructor; [lia|]); constructor).
  rewrite Forall_forall in H. apply H.
Qed.

Lemma name_loop_spec letter udigit : tables_ok letter udigit -> forall fuel s, bytes_ok s -> (length s < fuel)%nat ->
  (name_loop letter udigit fuel s = true <-> exists rs, utf8_string s rs /\ Forall (name_rune letter udigit) rs).
Proof.
  intros (L0 & D0 & HT). induction fuel as [|fuel IH]; intros s Hb Hf; [lia|].
  destruct s as [|b s]; [cbn; split; [exists []; split; constructor | reflexivity]|].
  cbn [name_loop]. destruct (decode_rune (b :: s)) as [c size] eqn:Ed.
  assert (Hbad : decode_rune (b :: s) = (rune_error, 1%nat) ->
    ~ exists rs, utf8_string (b :: s) rs /\ Forall (name_rune letter udigit) rs).
  { intros Hd (rs & Hu & Hr). apply decode_rune_bad in Hd. remember (b :: s) as x. destruct Hu as [|r s' rs Hsc Hu]; [discriminate|].
    apply (Hd r s' Hsc). reflexivity. }
  destruct (decode_rune_sound (b :: s) c size Hb ltac:(discriminate) Ed) as [[-> ->]|(Hsc & Hf1 & Hl & Heq)].
  - specialize (Hbad Ed). change (existsb (Z.eqb rune_error) valid_chars) with false. cbn iota.
    unfold rune_error. rewrite L0, D0. cbn. split; [discriminate | intros H; contradiction].
  - assert (Hok : bytes_ok (skipn size (b :: s))) by (apply Forall_skipn; assumption).
    assert (Hlen : (length (skipn size (b :: s)) < fuel)%nat).
    { rewrite skipn_length. pose proof (utf8_length c). cbn [length] in *. lia. }
    specialize (IH _ Hok Hlen).
    assert (Step : (exists rs, utf8_string (b :: s) rs /\ Forall (name_rune letter udigit) rs) <->
      name_rune letter udigit c /\ exists rs, utf8_string (skipn size (b :: s)) rs /\ Forall (name_rune letter udigit) rs).
    { split.
      - intros (rs & Hu & Hr). rewrite Heq in Hu. remember (utf8 c ++ skipn size (b :: s)) as x eqn:Ex.
        destruct Hu as [|r s' rs Hs' Hu]; [exfalso; pose proof (utf8_nonempty c); destruct (utf8 c); [congruence | discriminate]|].
        destruct (utf8_inj_prefix r c s' (skipn size (b :: s)) Hs' Hsc) as [-> ->]; [exact Ex|].
        inversion Hr; subst. split; [assumption | eauto].
      - intros (Hc & rs & Hu & Hr). exists (c :: rs). split; [rewrite Heq; constructor; assumption | constructor; assumption]. }
    rewrite Step. unfold name_rune at 1.
    destruct (existsb (Z.eqb c) valid_chars) eqn:Ev.
    + apply existsb_In in Ev. rewrite IH. tauto.
    + assert (~ In c valid_chars) by (rewrite <- existsb_In; congruence).
      destruct (letter c) eqn:El, (udigit c) eqn:Eu; cbn [negb andb]; rewrite ?IH; try tauto.
      split; [discriminate|]. intros ((_ & [H1|[H1|H1]]) & _); [contradiction | discriminate | discriminate].
Qed.

Lemma is_valid_field_name_spec letter udigit s : tables_ok letter udigit -> bytes_ok s ->
  (is_valid_field_name letter udigit s = true <-> valid_name letter udigit s).
Proof.
  intros HT Hb. unfold valid_name. destruct s as [|b s]; [cbn; split; [discriminate | intros [H _]; congruence]|].
  unfold is_valid_field_name. rewrite (name_loop_spec letter udigit HT) by (auto; cbn; lia).
  split; [intros H; split; [discriminate | exact H] | intros [_ H]; exact H].
Qed.

(** ** Keys *)

(** Runes that may be in a key: the names of tags and Go identifiers. *)
Definition key_rune (r : Z) : Prop := scalar r /\ 0x20 <= r /\ r <> 34 /\ r <> 92.
Definition key_name (s : bytes) (rs : list Z) : Prop := s <> [] /\ utf8_string s rs /\ Forall key_rune rs.

Lemma valid_name_key letter udigit s : tables_ok letter udigit -> valid_name letter udigit s -> exists rs, key_name s rs.
Proof.
  intros (_ & _ & HT) (Hn & rs & Hu & Hr). exists rs. split; [assumption|]. split; [assumption|].
  eapply Forall_impl; [|exact Hr]. intros r (Hs & [H|H]).
  - destruct (valid_chars_ascii r H) as (? & ? & ?). unfold key_rune. repeat split; auto; lia.
  - destruct (HT r H) as (? & ? & ? & _). unfold key_rune. repeat split; auto; lia.
Qed.

Lemma key_raw_jchars s rs : utf8_string s rs -> Forall key_rune rs -> jchars false (flat_map utf16 rs) s.
Proof.
  induction 1 as [|r s rs Hr _ IH]; intros Hf; [constructor|].
  inversion Hf as [|? ? (Hs & H1 & H2 & H3) Hf']; subst. cbn [flat_map]. apply jc_rune; auto.
Qed.

Lemma html_escape_cons c s : html_escape (c :: s) =
  if is_html c then html_esc c ++ html_escape s
  else if sep3 (c :: s) then sep_esc (nth 2 (c :: s) 0) ++ html_escape (skipn 3 (c :: s))
  else c :: html_escape s.
Proof.
  cbn [html_escape sep3]. destruct (is_html c); [reflexivity|].
  destruct s as [|b1 [|b2 s]]; try reflexivity.
Qed.

Lemma html_escape_copy h s : Forall (fun b => 0x80 <= b < 0xC0) h -> html_escape (h ++ s) = h ++ html_escape s.
Proof.
  induction 1 as [|b h Hb _ IH]; [reflexivity|]. cbn [app]. rewrite html_escape_cons, IH.
  replace (is_html b) with false by (unfold is_html; lia).
  replace (sep3 (b :: h ++ s)) with false; [reflexivity|].
  unfold sep3. destruct (h ++ s) as [|x [|y z]]; try reflexivity. lia.
Qed.

(** HTML escaping of a name does not change what it denotes. *)
Lemma key_esc_jchars s rs : utf8_string s rs -> Forall key_rune rs ->
  jchars false (flat_map utf16 rs) (html_escape s) /\ clean true (html_escape s).
Proof.
  induction 1 as [|r s rs Hr _ IH]; intros Hf; [split; [constructor | apply clean_nil]|].
  inversion Hf as [|? ? (Hs & H1 & H2 & H3) Hf']; subst. cbn [flat_map]. destruct (IH Hf') as [IH1 IH2].
  destruct (utf8_head r Hs) as (b & t & E & Hb & Ht).
  destruct (Z_lt_le_dec r 0x80) as [L|L].
  - rewrite utf8_ascii by lia. cbn [app]. rewrite html_escape_cons. destruct (is_html r) eqn:Eh.
    + rewrite utf16_bmp by lia. cbn [app]. split.
      * change (html_esc r) with (l_u00 ++ [hex_at (Z.shiftr r 4); hex_at (Z.land r 15)]).
        replace (l_u00 ++ [hex_at (Z.shiftr r 4); hex_at (Z.land r 15)]) with (esc_ascii r).
        -- apply esc_ascii_jchars; [lia | assumption].
        -- unfold esc_ascii. unfold is_html in Eh. replace ((r =? 34) || (r =? 92)) with false by lia.
           replace (r =? 10) with false by lia. replace (r =? 13) with false by lia. replace (r =? 9) with false by lia. reflexivity.
      * apply clean_app; [|assumption]. apply clean_asciis.
        unfold is_html in Eh. assert (r = 60 \/ r = 62 \/ r = 38) as [-> | [-> | ->]] by lia;
          vm_compute; repeat constructor; discriminate.
    + replace (sep3 (r :: s)) with false by (unfold sep3; destruct s as [|x [|y z]]; try reflexivity; lia).
      split.
      * change (r :: html_escape s) with ([r] ++ html_escape s). rewrite <- (utf8_ascii r) by lia. apply jc_rune; auto.
      * apply clean_cons; auto; lia.
  - assert (Hnh : is_html b = false).
    { pose proof (utf8_high r Hs L) as F. rewrite E in F. inversion F; subst. unfold is_html; lia. }
    destruct (utf8_sep r Hs s) as [Hsep|(b' & E' & _)].
    + destruct ((r =? 0x2028) || (r =? 0x2029)) eqn:Er.
      * assert (r = 0x2028 \/ r = 0x2029) as R by lia. clear E.
        assert (utf8 r ++ s = 0xE2 :: 0x80 :: (r - 0x2028 + 0xA8) :: s) as E by (destruct R as [-> | ->]; reflexivity).
        rewrite E in *. rewrite html_escape_cons. replace (is_html 0xE2) with false by reflexivity. rewrite Hsep.
        cbn [nth skipn]. rewrite utf16_bmp by lia. cbn [app]. split.
        -- replace (sep_esc (r - 0x2028 + 0xA8)) with (l_u202 ++ [hex_at (Z.land r 15)]) by (destruct R as [-> | ->]; reflexivity).
           apply esc_202_jchars; assumption.
        -- apply clean_app; [|assumption]. apply clean_asciis. destruct R as [-> | ->]; vm_compute; repeat constructor; discriminate.
      * rewrite E in *. cbn [app] in *. rewrite html_escape_cons, Hnh, Hsep. rewrite html_escape_copy by (eapply Forall_impl; [|exact Ht]; cbn; intros; lia).
        change (b :: t ++ html_escape s) with ((b :: t) ++ html_escape s). rewrite <- E. split.
        -- apply jc_rune; auto.
        -- apply clean_app; [|assumption]. exists [r]. split; [rewrite <- (app_nil_r (utf8 r)); constructor; [assumption | constructor]|].
           constructor; [|constructor]. unfold clean_rune. repeat split; auto; lia.
    + pose proof (utf8_high r Hs L) as F. exfalso. rewrite E' in F. inversion F; subst.
      unfold utf8 in E'. destruct (r <? 0x80) eqn:?; [lia|]. destruct (r <? 0x800); [discriminate|]. destruct (r <? 0x10000); discriminate.
Qed.

(** Both key forms are a JSON string denoting the name, then a colon. *)
Lemma key_json s rs : key_name s rs ->
  (exists k, key_raw s = k ++ [58] /\ cjson (JStr (flat_map utf16 rs)) k) /\
  (exists k, key_esc s = k ++ [58] /\ cjson (JStr (flat_map utf16 rs)) k).
Proof.
  intros (_ & Hu & Hf). split.
  - exists (34 :: s ++ [34]). split; [unfold key_raw; cbn [app]; rewrite <- app_assoc; reflexivity|].
    constructor. apply key_raw_jchars; assumption.
  - exists (34 :: html_escape s ++ [34]). split; [unfold key_esc; cbn [app]; rewrite <- app_assoc; reflexivity|].
    constructor. apply key_esc_jchars; assumption.
Qed.
