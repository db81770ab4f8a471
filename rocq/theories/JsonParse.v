(** A reader for JSON texts, proved sound and complete for JsonSpec.

    It serves two purposes: it shows that a text has at most one reading, and
    it is the model of encoding/json.Valid (called at encode.go:711), which
    accepts exactly the JSON grammar but does not check that strings are valid
    UTF-8 (the [lax] reading). *)
From Verif Require Import Base Utf8 JsonSpec NumberModel NumberProof EscapeProof.

Fixpoint skip_ws (s : bytes) : bytes :=
  match s with
  | b :: s' => if ws_char b then skip_ws s' else s
  | [] => []
  end.

(** Inside of a string, after the opening quote; returns what follows the
    closing quote. *)
Fixpoint pstr (fuel : nat) (s : bytes) : option (list cu * bytes) :=
  match fuel with
  | O => None
  | S f =>
    match s with
    | [] => None
    | b :: s' =>
      if b =? 34 then Some ([], s')
      else if b =? 92 then
        match s' with
        | [] => None
        | c :: s'' =>
          if c =? 117 then
            match s'' with
            | h1 :: h2 :: h3 :: h4 :: r =>
              match hexval h1, hexval h2, hexval h3, hexval h4 with
              | Some x1, Some x2, Some x3, Some x4 =>
                match pstr f r with
                | Some (us, q) => Some (U16 (x1 * 4096 + x2 * 256 + x3 * 16 + x4) :: us, q)
                | None => None
                end
              | _, _, _, _ => None
              end
            | _ => None
            end
          else
            match esc2 c with
            | Some u => match pstr f s'' with Some (us, q) => Some (U16 u :: us, q) | None => None end
            | None => None
            end
        end
      else if b <? 32 then None
      else
        let '(r, n) := decode_rune s in
        if (r =? rune_error) && (n =? 1)%nat then
          match pstr f s' with Some (us, q) => Some (Raw b :: us, q) | None => None end
        else
          match pstr f (skipn n s) with Some (us, q) => Some (utf16 r ++ us, q) | None => None end
    end
  end.

Definition is_numchar (b : Z) : bool :=
  is_digit b || (b =? 45) || (b =? 43) || (b =? 46) || (b =? 101) || (b =? 69).

Fixpoint span_num (s : bytes) : bytes * bytes :=
  match s with
  | b :: s' => if is_numchar b then let '(x, y) := span_num s' in (b :: x, y) else ([], s)
  | [] => ([], [])
  end.

Definition strip (p s : bytes) : option bytes :=
  if is_prefixb p s then Some (skipn (length p) s) else None.

Fixpoint pval (fuel : nat) (s : bytes) : option (jval * bytes) :=
  match fuel with
  | O => None
  | S f =>
    match s with
    | [] => None
    | c :: s' =>
      if c =? 110 then match strip l_null s with Some r => Some (JNull, r) | None => None end
      else if c =? 116 then match strip l_true s with Some r => Some (JBool true, r) | None => None end
      else if c =? 102 then match strip l_false s with Some r => Some (JBool false, r) | None => None end
      else if c =? 34 then
        match pstr (S (length s')) s' with Some (us, r) => Some (JStr us, r) | None => None end
      else if c =? 91 then
        match skip_ws s' with
        | [] => None
        | d :: r =>
          if d =? 93 then Some (JArr [], r)
          else match pelems f s' with Some (vs, r) => Some (JArr vs, r) | None => None end
        end
      else if c =? 123 then
        match skip_ws s' with
        | [] => None
        | d :: r =>
          if d =? 125 then Some (JObj [], r)
          else match pmembers f s' with Some (ms, r) => Some (JObj ms, r) | None => None end
        end
      else
        let '(l, r) := span_num s in
        if is_valid_number l then Some (JNum l, r) else None
    end
  end
with pelems (fuel : nat) (s : bytes) : option (list jval * bytes) :=
  match fuel with
  | O => None
  | S f =>
    match pval f (skip_ws s) with
    | None => None
    | Some (v, r) =>
      match skip_ws r with
      | [] => None
      | d :: r' =>
        if d =? 44 then match pelems f r' with Some (vs, q) => Some (v :: vs, q) | None => None end
        else if d =? 93 then Some ([v], r')
        else None
      end
    end
  end
with pmembers (fuel : nat) (s : bytes) : option (list (list cu * jval) * bytes) :=
  match fuel with
  | O => None
  | S f =>
    match skip_ws s with
    | [] => None
    | q :: s1 =>
      if q =? 34 then
        match pstr (S (length s1)) s1 with
        | None => None
        | Some (k, s2) =>
          match skip_ws s2 with
          | [] => None
          | c :: s3 =>
            if c =? 58 then
              match pval f (skip_ws s3) with
              | None => None
              | Some (v, r) =>
                match skip_ws r with
                | [] => None
                | d :: r' =>
                  if d =? 44 then match pmembers f r' with Some (ms, q) => Some ((k, v) :: ms, q) | None => None end
                  else if d =? 125 then Some ([(k, v)], r')
                  else None
                end
              end
            else None
          end
        end
      else None
    end
  end.

(** The whole input. *)
Definition parse_json (s : bytes) : option jval :=
  match pval (2 * length s + 1) (skip_ws s) with
  | Some (v, r) => match skip_ws r with [] => Some v | _ => None end
  | None => None
  end.

(** encoding/json.Valid. *)
Definition json_valid (s : bytes) : bool := match parse_json s with Some _ => true | None => false end.

(** ** Whitespace *)
Lemma skip_ws_split s : exists w, ws w /\ s = w ++ skip_ws s.
Proof.
  induction s as [|b s (w & H & E)]; cbn [skip_ws].
  - exists []. split; [constructor | reflexivity].
  - destruct (ws_char b) eqn:Eb.
    + exists (b :: w). split; [constructor; assumption | simpl; congruence].
    + exists []. split; [constructor | reflexivity].
Qed.

Definition nows_head (s : bytes) : Prop := match s with [] => True | b :: _ => ws_char b = false end.

Lemma skip_ws_head s : nows_head (skip_ws s).
Proof.
  induction s as [|b s IH]; cbn [skip_ws]; [exact I|]. destruct (ws_char b) eqn:E; [exact IH | exact E].
Qed.

Lemma skip_ws_app w s : ws w -> nows_head s -> skip_ws (w ++ s) = s.
Proof.
  induction 1 as [|b w Hb H IH]; intros Hs; cbn [app skip_ws].
  - destruct s as [|b s]; [reflexivity|]. simpl in Hs |- *. rewrite Hs. reflexivity.
  - rewrite Hb. auto.
Qed.

(** ** Strings *)
Lemma pstr_sound fuel : forall s us r, bytes_ok s -> pstr fuel s = Some (us, r) ->
  exists t, s = t ++ 34 :: r /\ jchars true us t.
Proof.
  induction fuel as [|f IH]; intros s us r Hok H; [discriminate|]. cbn [pstr] in H.
  destruct s as [|b s']; [discriminate|]. inversion Hok as [|? ? Hb Hok']; subst.
  destruct (b =? 34) eqn:E34.
  { injection H as <- <-. exists []. split; [simpl; f_equal; lia | constructor]. }
  destruct (b =? 92) eqn:E92.
  { replace b with 92 by lia.
    destruct s' as [|c s'']; [discriminate|]. inversion Hok' as [|? ? Hc Hok'']; subst.
    destruct (c =? 117) eqn:E117.
    - replace c with 117 by lia.
      destruct s'' as [|h1 [|h2 [|h3 [|h4 q]]]]; try discriminate.
      destruct (hexval h1) as [x1|] eqn:H1; [|discriminate].
      destruct (hexval h2) as [x2|] eqn:H2; [|discriminate].
      destruct (hexval h3) as [x3|] eqn:H3; [|discriminate].
      destruct (hexval h4) as [x4|] eqn:H4; [|discriminate].
      destruct (pstr f q) as [[us' r']|] eqn:E; [|discriminate]. injection H as <- <-.
      destruct (IH q us' r') as (t & -> & Ht); [|exact E|].
      { unfold bytes_ok in *. repeat match goal with H : Forall _ (_ :: _) |- _ => inversion H; clear H; subst end. assumption. }
      exists (92 :: 117 :: h1 :: h2 :: h3 :: h4 :: t). split; [reflexivity|]. apply jc_hex; assumption.
    - destruct (esc2 c) as [u|] eqn:Ec; [|discriminate].
      destruct (pstr f s'') as [[us' r']|] eqn:E; [|discriminate]. injection H as <- <-.
      destruct (IH s'' us' r' Hok'' E) as (t & -> & Ht).
      exists (92 :: c :: t). split; [reflexivity|]. apply jc_esc2; assumption. }
  destruct (b <? 32) eqn:E32; [discriminate|].
  destruct (decode_rune (b :: s')) as [rr n] eqn:Ed.
  destruct ((rr =? rune_error) && (n =? 1)%nat) eqn:Er.
  - destruct (pstr f s') as [[us' r']|] eqn:E; [|discriminate]. injection H as <- <-.
    destruct (IH s' us' r' Hok' E) as (t & -> & Ht).
    exists (b :: t). split; [reflexivity|]. apply jc_raw; auto.
    assert (Hnr : no_rune (b :: t ++ 34 :: r')).
    { apply decode_rune_bad. rewrite Ed. f_equal; lia. }
    intros x rest Hx Ex. apply (Hnr x (rest ++ 34 :: r') Hx).
    change (b :: t ++ 34 :: r') with ((b :: t) ++ 34 :: r'). rewrite Ex. rewrite <- app_assoc. reflexivity.
  - destruct (pstr f (skipn n (b :: s'))) as [[us' r']|] eqn:E; [|discriminate]. injection H as <- <-.
    destruct (decode_rune_sound (b :: s') rr n Hok ltac:(discriminate) Ed) as [[-> ->]|(Hs & _ & Hl & Hp)].
    { rewrite Z.eqb_refl in Er. discriminate. }
    destruct (IH (skipn n (b :: s')) us' r') as (t & Et & Ht); [apply Forall_skipn, Hok | exact E|].
    exists (utf8 rr ++ t). split.
    + rewrite Hp, Et, app_assoc. reflexivity.
    + assert (Hhead : 0x80 <= b \/ rr = b).
      { destruct (Z_lt_dec b 0x80) as [Hlt|]; [right | left; lia].
        unfold decode_rune in Ed. replace (b <? 0x80) with true in Ed by lia. congruence. }
      assert (rr < 0x80 -> rr = b).
      { intros Hrr. destruct Hhead as [Hh| ->]; [|reflexivity].
        rewrite utf8_ascii in Hp by (unfold scalar in Hs; lia). injection Hp as -> _. lia. }
      apply jc_rune; auto; lia.
Qed.

Lemma no_rune_app_quote b t r : is_byte b -> no_rune (b :: t) -> no_rune (b :: t ++ 34 :: r).
Proof.
  intros Hb H.
  assert (Hh : 0x80 <= b) by (eapply no_rune_high; eauto; unfold is_byte in Hb; lia).
  eapply no_rune_hi; [exact Hh| |exact H].
  clear. induction t as [|x t IH]; [reflexivity|]. cbn [app hi_prefix]. destruct (0x80 <=? x); [congruence | reflexivity].
Qed.

Lemma jchars_head_not_quote lax us s : jchars lax us s -> us <> [] -> exists b t, s = b :: t /\ b <> 34.
Proof.
  intros H Hne. destruct H as [|r us s Hr H20 H34 H92 H|c u us s Hc H|h1 h2 h3 h4 a b c d us s Ha Hb Hc Hd H|b us s Hl Hb Hn H];
    try congruence; try (eexists; eexists; split; [reflexivity|]; lia).
  - destruct (utf8_head r Hr) as (b & t & E & Hb & _). rewrite E. exists b, (t ++ s). split; [reflexivity|].
    intros ->. apply H34. assert (E' := decode_rune_utf8 r [] Hr). rewrite E in E'. cbn in E'. congruence.
  - eexists; eexists; split; [reflexivity|]. apply no_rune_high in Hn; unfold is_byte in *; lia.
Qed.

Lemma pstr_complete lax us s : jchars lax us s -> bytes_ok s -> forall fuel r, bytes_ok r -> (length s < fuel)%nat ->
  pstr fuel (s ++ 34 :: r) = Some (us, r).
Proof.
  induction 1 as [|x us s Hr H20 H34 H92 H IH|c u us s Hc H IH|h1 h2 h3 h4 a b c d us s Ha Hb Hc Hd H IH|b us s Hl Hb Hn H IH];
    intros Hok fuel r Hokr Hf; (destruct fuel as [|f]; [lia|]); cbn [pstr].
  - reflexivity.
  - apply Forall_app in Hok. destruct Hok as [_ Hok].
    destruct (utf8_head x Hr) as (b & t & E & Hb & Ht).
    assert (Hbx : b < 0x80 -> b = x /\ t = []).
    { intros Hlt. assert (E' := decode_rune_utf8 x [] Hr). rewrite app_nil_r, E in E'.
      unfold decode_rune in E'. replace (b <? 0x80) with true in E' by lia. injection E' as -> E'.
      destruct t; [auto | discriminate]. }
    rewrite <- app_assoc.
    remember (utf8 x ++ s ++ 34 :: r) as full eqn:Efull.
    assert (Edec : decode_rune full = (x, length (utf8 x))) by (subst full; apply decode_rune_utf8, Hr).
    assert (Eskip : skipn (length (utf8 x)) full = s ++ 34 :: r) by (subst full; apply skipn_app_exact).
    destruct full as [|b' full']. { exfalso. symmetry in Efull. eapply utf8_app_nil; eauto. }
    rewrite E in Efull. injection Efull as -> Efull.
    replace (b =? 34) with false by lia. replace (b =? 92) with false by lia. replace (b <? 32) with false by lia.
    rewrite Edec.
    replace ((x =? rune_error) && (length (utf8 x) =? 1)%nat) with false.
    2:{ destruct (x =? rune_error) eqn:Ex; [|reflexivity]. replace x with rune_error by lia. reflexivity. }
    rewrite Eskip, IH; auto.
    rewrite app_length in Hf. assert (L := utf8_length x). lia.
  - unfold bytes_ok in *. repeat match goal with H : Forall _ (_ :: _) |- _ => inversion H; clear H; subst end.
    cbn [app]. replace (92 =? 34) with false by lia. rewrite Z.eqb_refl.
    replace (c =? 117) with false.
    2:{ destruct (c =? 117) eqn:E; [|reflexivity]. replace c with 117 in Hc by lia. discriminate. }
    rewrite Hc, IH; auto. simpl in Hf. lia.
  - unfold bytes_ok in *. repeat match goal with H : Forall _ (_ :: _) |- _ => inversion H; clear H; subst end.
    cbn [app]. replace (92 =? 34) with false by lia. rewrite !Z.eqb_refl.
    rewrite Ha, Hb, Hc, Hd, IH; auto. simpl in Hf. lia.
  - inversion Hok as [|? ? _ Hok']; subst.
    assert (Hh : 0x80 <= b) by (eapply no_rune_high; eauto; unfold is_byte in Hb; lia).
    cbn [app]. replace (b =? 34) with false by lia. replace (b =? 92) with false by lia. replace (b <? 32) with false by lia.
    rewrite no_rune_decode.
    + rewrite Z.eqb_refl. cbn [andb Nat.eqb]. rewrite IH; auto. simpl in Hf. lia.
    + constructor; auto. apply Forall_app. split; [assumption|]. constructor; [unfold is_byte; lia | assumption].
    + discriminate.
    + apply no_rune_app_quote; assumption.
Qed.

(** ** Numbers *)
Lemma is_numchar_spec b : is_numchar b = true <-> numchar b.
Proof. unfold is_numchar, numchar, is_digit, digit. lia. Qed.

Definition stop (s : bytes) : Prop := match s with [] => True | b :: _ => is_numchar b = false end.

Lemma span_num_split s l r : span_num s = (l, r) -> s = l ++ r.
Proof.
  revert l r; induction s as [|b s IH]; intros l r; cbn [span_num].
  - intros H; injection H as <- <-. reflexivity.
  - destruct (is_numchar b); [|intros H; injection H as <- <-; reflexivity].
    destruct (span_num s) as [x y] eqn:E. intros H; injection H as <- <-. simpl. f_equal. auto.
Qed.

Lemma span_num_app l r : Forall numchar l -> stop r -> span_num (l ++ r) = (l, r).
Proof.
  induction 1 as [|b l Hb H IH]; intros Hr; cbn [app span_num].
  - destruct r as [|b r]; [reflexivity|]. simpl in *. rewrite Hr. reflexivity.
  - apply is_numchar_spec in Hb. rewrite Hb. rewrite IH by assumption. reflexivity.
Qed.

Lemma strip_spec p s r : strip p s = Some r <-> s = p ++ r.
Proof.
  unfold strip. destruct (is_prefixb p s) eqn:E.
  - apply is_prefixb_spec in E. destruct E as [q ->]. rewrite skipn_app_exact.
    split; [intros H; injection H as ->; reflexivity | intros H; f_equal; now apply app_inv_head in H].
  - split; [discriminate|]. intros ->. exfalso.
    assert (is_prefixb p (p ++ r) = true) by (apply is_prefixb_spec; exists r; reflexivity). congruence.
Qed.

(** ** Soundness *)
Lemma bytes_ok_app a b : bytes_ok (a ++ b) <-> bytes_ok a /\ bytes_ok b.
Proof. apply Forall_app. Qed.

Lemma bytes_ok_cons a b : bytes_ok (a :: b) <-> is_byte a /\ bytes_ok b.
Proof. split; [intros H; inversion H; auto | intros []; constructor; auto]. Qed.

Lemma parse_sound fuel :
  (forall s v r, bytes_ok s -> pval fuel s = Some (v, r) -> exists t, s = t ++ r /\ json ws true v t) /\
  (forall s vs r, bytes_ok s -> pelems fuel s = Some (vs, r) -> exists t, s = t ++ 93 :: r /\ jelems ws true vs t) /\
  (forall s ms r, bytes_ok s -> pmembers fuel s = Some (ms, r) -> exists t, s = t ++ 125 :: r /\ jmembers ws true ms t).
Proof.
  induction fuel as [|f (IHv & IHe & IHm)]; [repeat split; discriminate|].
  split; [|split].
  - intros s v r Hok H. cbn [pval] in H. destruct s as [|c s']; [discriminate|].
    assert (Hok' : bytes_ok s') by (inversion Hok; assumption).
    destruct (c =? 110) eqn:E1.
    { destruct (strip l_null (c :: s')) as [q|] eqn:E; [|discriminate]. injection H as <- <-.
      apply strip_spec in E. exists l_null. split; [exact E | constructor]. }
    destruct (c =? 116) eqn:E2.
    { destruct (strip l_true (c :: s')) as [q|] eqn:E; [|discriminate]. injection H as <- <-.
      apply strip_spec in E. exists l_true. split; [exact E | constructor]. }
    destruct (c =? 102) eqn:E3.
    { destruct (strip l_false (c :: s')) as [q|] eqn:E; [|discriminate]. injection H as <- <-.
      apply strip_spec in E. exists l_false. split; [exact E | constructor]. }
    destruct (c =? 34) eqn:E4.
    { destruct (pstr (S (length s')) s') as [[us q]|] eqn:E; [|discriminate]. injection H as <- <-.
      apply pstr_sound in E; [|assumption]. destruct E as (t & -> & Ht).
      exists (34 :: t ++ [34]). split; [|constructor; assumption].
      replace c with 34 by lia. cbn [app]. rewrite <- app_assoc. reflexivity. }
    destruct (c =? 91) eqn:E5.
    { replace c with 91 by lia.
      destruct (skip_ws_split s') as (w & Hw & Es). destruct (skip_ws s') as [|d q] eqn:Esk; [discriminate|].
      destruct (d =? 93) eqn:Ed.
      - injection H as <- <-. exists (91 :: w ++ [93]). split; [|constructor; assumption].
        rewrite Es. replace d with 93 by lia. cbn [app]. rewrite <- app_assoc. reflexivity.
      - destruct (pelems f s') as [[vs q']|] eqn:E; [|discriminate]. injection H as <- <-.
        apply IHe in E; [|assumption]. destruct E as (t & -> & Ht).
        exists (91 :: t ++ [93]). split; [|constructor; assumption]. cbn [app]. rewrite <- app_assoc. reflexivity. }
    destruct (c =? 123) eqn:E6.
    { replace c with 123 by lia.
      destruct (skip_ws_split s') as (w & Hw & Es). destruct (skip_ws s') as [|d q] eqn:Esk; [discriminate|].
      destruct (d =? 125) eqn:Ed.
      - injection H as <- <-. exists (123 :: w ++ [125]). split; [|constructor; assumption].
        rewrite Es. replace d with 125 by lia. cbn [app]. rewrite <- app_assoc. reflexivity.
      - destruct (pmembers f s') as [[vs q']|] eqn:E; [|discriminate]. injection H as <- <-.
        apply IHm in E; [|assumption]. destruct E as (t & -> & Ht).
        exists (123 :: t ++ [125]). split; [|constructor; assumption]. cbn [app]. rewrite <- app_assoc. reflexivity. }
    destruct (span_num (c :: s')) as [l q] eqn:E. destruct (is_valid_number l) eqn:En; [|discriminate].
    injection H as <- <-. exists l. split; [apply span_num_split, E | constructor; apply is_valid_number_correct, En].
  - intros s vs r Hok H. cbn [pelems] in H.
    destruct (skip_ws_split s) as (w & Hw & Es). rewrite Es in Hok. apply bytes_ok_app in Hok. destruct Hok as [_ Hok].
    destruct (pval f (skip_ws s)) as [[v q]|] eqn:E; [|discriminate].
    apply IHv in E; [|assumption]. destruct E as (t & Et & Ht). rewrite Et in Hok, Es. apply bytes_ok_app in Hok. destruct Hok as [_ Hok].
    destruct (skip_ws_split q) as (w2 & Hw2 & Eq). rewrite Eq in Hok, Es. apply bytes_ok_app in Hok. destruct Hok as [_ Hok].
    destruct (skip_ws q) as [|d q']; [discriminate|]. apply bytes_ok_cons in Hok. destruct Hok as [_ Hok].
    destruct (d =? 44) eqn:Ed.
    + destruct (pelems f q') as [[vs' q'']|] eqn:E; [|discriminate]. injection H as <- <-.
      apply IHe in E; [|assumption]. destruct E as (t' & -> & Ht').
      exists (w ++ t ++ w2 ++ 44 :: t'). split; [|constructor; assumption].
      rewrite Es. replace d with 44 by lia. rewrite <- !app_assoc. reflexivity.
    + destruct (d =? 93) eqn:Ed2; [|discriminate]. injection H as <- <-.
      exists (w ++ t ++ w2). split; [|constructor; assumption].
      rewrite Es. replace d with 93 by lia. rewrite <- !app_assoc. reflexivity.
  - intros s ms r Hok H. cbn [pmembers] in H.
    destruct (skip_ws_split s) as (w & Hw & Es). rewrite Es in Hok. apply bytes_ok_app in Hok. destruct Hok as [_ Hok].
    destruct (skip_ws s) as [|q s1]; [discriminate|]. apply bytes_ok_cons in Hok. destruct Hok as [_ Hok].
    destruct (q =? 34) eqn:Eq; [|discriminate]. replace q with 34 in Es by lia.
    destruct (pstr (S (length s1)) s1) as [[k s2]|] eqn:E; [|discriminate].
    apply pstr_sound in E; [|assumption]. destruct E as (ks & -> & Hk).
    apply bytes_ok_app in Hok. destruct Hok as [_ Hok]. apply bytes_ok_cons in Hok. destruct Hok as [_ Hok].
    destruct (skip_ws_split s2) as (w2 & Hw2 & Es2). rewrite Es2 in Hok, Es. apply bytes_ok_app in Hok. destruct Hok as [_ Hok].
    destruct (skip_ws s2) as [|c s3]; [discriminate|]. apply bytes_ok_cons in Hok. destruct Hok as [_ Hok].
    destruct (c =? 58) eqn:Ec; [|discriminate]. replace c with 58 in Es by lia.
    destruct (skip_ws_split s3) as (w3 & Hw3 & Es3). rewrite Es3 in Hok, Es. apply bytes_ok_app in Hok. destruct Hok as [_ Hok].
    destruct (pval f (skip_ws s3)) as [[v q0]|] eqn:E; [|discriminate].
    apply IHv in E; [|assumption]. destruct E as (t & Et & Ht). rewrite Et in Hok, Es. apply bytes_ok_app in Hok. destruct Hok as [_ Hok].
    destruct (skip_ws_split q0) as (w4 & Hw4 & Eq0). rewrite Eq0 in Hok, Es. apply bytes_ok_app in Hok. destruct Hok as [_ Hok].
    destruct (skip_ws q0) as [|d q']; [discriminate|]. apply bytes_ok_cons in Hok. destruct Hok as [_ Hok].
    destruct (d =? 44) eqn:Ed.
    + destruct (pmembers f q') as [[ms' q'']|] eqn:E; [|discriminate]. injection H as <- <-.
      apply IHm in E; [|assumption]. destruct E as (t' & -> & Ht').
      exists (w ++ 34 :: ks ++ 34 :: w2 ++ 58 :: w3 ++ t ++ w4 ++ 44 :: t'). split; [|constructor; assumption].
      rewrite Es. replace d with 44 by lia.
      repeat (rewrite <- !app_assoc; cbn [app]). reflexivity.
    + destruct (d =? 125) eqn:Ed2; [|discriminate]. injection H as <- <-.
      exists (w ++ 34 :: ks ++ 34 :: w2 ++ 58 :: w3 ++ t ++ w4). split; [|constructor; assumption].
      rewrite Es. replace d with 125 by lia.
      repeat (rewrite <- !app_assoc; cbn [app]). reflexivity.
Qed.

(** ** Completeness *)

(** First byte of a JSON value. *)
Definition val_head (s : bytes) : Prop :=
  exists c t, s = c :: t /\ ws_char c = false /\ c <> 93 /\ c <> 125 /\ c <> 44 /\ c <> 58.

Lemma json_head W lax v s : json W lax v s -> val_head s.
Proof.
  unfold val_head. intros H. destruct H; try (eexists; eexists; split; [reflexivity|]; unfold ws_char; lia).
  destruct (jnumber_head l H) as (c & t & -> & Hc). exists c, t. split; [reflexivity|].
  unfold ws_char, digit in *. lia.
Qed.

Lemma ws_stop w r : ws w -> stop r -> stop (w ++ r).
Proof.
  intros [|b w' Hb _] Hr; [exact Hr|]. simpl. unfold is_numchar, is_digit, ws_char in *. lia.
Qed.

Lemma val_head_nows s r : val_head s -> nows_head (s ++ r).
Proof. intros (c & t & -> & H & _). simpl. exact H. Qed.

Lemma val_head_nonempty s : val_head s -> (1 <= length s)%nat.
Proof. intros (c & t & -> & _). simpl. lia. Qed.

Lemma parse_complete lax :
  (forall v s, json ws lax v s -> bytes_ok s -> forall fuel r, bytes_ok r -> stop r -> (2 * length s <= fuel)%nat ->
     pval fuel (s ++ r) = Some (v, r)) /\
  (forall vs s, jelems ws lax vs s -> bytes_ok s -> forall fuel r, bytes_ok r -> (2 * length s + 1 <= fuel)%nat ->
     pelems fuel (s ++ 93 :: r) = Some (vs, r) /\ (exists c q, skip_ws (s ++ 93 :: r) = c :: q /\ c <> 93)) /\
  (forall ms s, jmembers ws lax ms s -> bytes_ok s -> forall fuel r, bytes_ok r -> (2 * length s + 1 <= fuel)%nat ->
     pmembers fuel (s ++ 125 :: r) = Some (ms, r) /\ (exists c q, skip_ws (s ++ 125 :: r) = c :: q /\ c <> 125)).
Proof.
  assert (B93 : is_byte 93) by (unfold is_byte; lia).
  assert (B125 : is_byte 125) by (unfold is_byte; lia).
  assert (B44 : is_byte 44) by (unfold is_byte; lia).
  assert (B58 : is_byte 58) by (unfold is_byte; lia).
  assert (B34 : is_byte 34) by (unfold is_byte; lia).
  apply json_mutind.
  - intros _ fuel r _ _ Hf. destruct fuel as [|f]; [simpl in Hf; lia|]. reflexivity.
  - intros _ fuel r _ _ Hf. destruct fuel as [|f]; [simpl in Hf; lia|]. reflexivity.
  - intros _ fuel r _ _ Hf. destruct fuel as [|f]; [simpl in Hf; lia|]. reflexivity.
  - intros l Hl Hok fuel r Hr Hstop Hf.
    assert (Hsp : span_num (l ++ r) = (l, r)) by (apply span_num_app; [apply jnumber_chars, Hl | exact Hstop]).
    destruct (jnumber_head l Hl) as (c & t & E & Hc). unfold digit in Hc.
    destruct fuel as [|f]; [rewrite E in Hf; simpl in Hf; lia|]. cbn [pval].
    remember (l ++ r) as full eqn:Ef. destruct full as [|c' full]; [rewrite E in Ef; discriminate|].
    rewrite E in Ef. injection Ef as -> Ef.
    replace (c =? 110) with false by lia. replace (c =? 116) with false by lia. replace (c =? 102) with false by lia.
    replace (c =? 34) with false by lia. replace (c =? 91) with false by lia. replace (c =? 123) with false by lia.
    rewrite Hsp. apply is_valid_number_correct in Hl. rewrite Hl. reflexivity.
  - intros us s Hs Hok fuel r Hr Hstop Hf. destruct fuel as [|f]; [simpl in Hf; lia|].
    apply bytes_ok_cons in Hok. destruct Hok as [_ Hok]. apply bytes_ok_app in Hok. destruct Hok as [Hok _].
    cbn [pval app]. rewrite <- app_assoc. cbn [app].
    replace (34 =? 110) with false by lia. replace (34 =? 116) with false by lia. replace (34 =? 102) with false by lia.
    replace (34 =? 34) with true by lia.
    rewrite (pstr_complete lax us s Hs Hok); auto. rewrite app_length. lia.
  - intros w Hw Hok fuel r Hr Hstop Hf. destruct fuel as [|f]; [simpl in Hf; lia|].
    cbn [pval app]. rewrite <- app_assoc. cbn [app].
    rewrite skip_ws_app by (auto; reflexivity). reflexivity.
  - intros vs s Hs IH Hok fuel r Hr Hstop Hf. destruct fuel as [|f]; [simpl in Hf; lia|].
    apply bytes_ok_cons in Hok. destruct Hok as [_ Hok]. apply bytes_ok_app in Hok. destruct Hok as [Hok _].
    cbn [length] in Hf. rewrite app_length in Hf. cbn [length] in Hf.
    destruct (IH Hok f r Hr ltac:(lia)) as (E & c & q & Eq & Hc).
    cbn [pval app]. rewrite <- app_assoc. cbn [app].
    replace (91 =? 110) with false by lia. replace (91 =? 116) with false by lia. replace (91 =? 102) with false by lia.
    replace (91 =? 34) with false by lia. replace (91 =? 91) with true by lia.
    rewrite Eq. replace (c =? 93) with false by lia. rewrite E. reflexivity.
  - intros w Hw Hok fuel r Hr Hstop Hf. destruct fuel as [|f]; [simpl in Hf; lia|].
    cbn [pval app]. rewrite <- app_assoc. cbn [app].
    rewrite skip_ws_app by (auto; reflexivity). reflexivity.
  - intros vs s Hs IH Hok fuel r Hr Hstop Hf. destruct fuel as [|f]; [simpl in Hf; lia|].
    apply bytes_ok_cons in Hok. destruct Hok as [_ Hok]. apply bytes_ok_app in Hok. destruct Hok as [Hok _].
    cbn [length] in Hf. rewrite app_length in Hf. cbn [length] in Hf.
    destruct (IH Hok f r Hr ltac:(lia)) as (E & c & q & Eq & Hc).
    cbn [pval app]. rewrite <- app_assoc. cbn [app].
    replace (123 =? 110) with false by lia. replace (123 =? 116) with false by lia. replace (123 =? 102) with false by lia.
    replace (123 =? 34) with false by lia. replace (123 =? 91) with false by lia. replace (123 =? 123) with true by lia.
    rewrite Eq. replace (c =? 125) with false by lia. rewrite E. reflexivity.
  - (* one element *)
    intros w1 v s w2 Hw1 Hs IH Hw2 Hok fuel r Hr Hf. destruct fuel as [|f]; [lia|].
    rewrite !bytes_ok_app in Hok. destruct Hok as (Hok1 & Hok2 & Hok3).
    rewrite !app_length in Hf.
    assert (Hh := json_head _ _ _ _ Hs).
    assert (Hsk : skip_ws ((w1 ++ s ++ w2) ++ 93 :: r) = s ++ w2 ++ 93 :: r).
    { rewrite <- !app_assoc. apply skip_ws_app; [assumption | apply val_head_nows, Hh]. }
    split.
    + cbn [pelems]. rewrite Hsk, IH; auto.
      * rewrite skip_ws_app by (auto; reflexivity). reflexivity.
      * apply bytes_ok_app. split; [assumption | constructor; assumption].
      * apply ws_stop; [assumption | reflexivity].
      * lia.
    + rewrite Hsk. destruct Hh as (c & t & -> & _ & Hc & _). exists c, (t ++ w2 ++ 93 :: r). auto.
  - intros w1 v s w2 vs t Hw1 Hs IH Hw2 Ht IHt Hok fuel r Hr Hf. destruct fuel as [|f]; [lia|].
    rewrite !bytes_ok_app, bytes_ok_cons in Hok. destruct Hok as (Hok1 & Hok2 & Hok3 & _ & Hok4).
    rewrite !app_length in Hf. cbn [length] in Hf.
    assert (Hh := json_head _ _ _ _ Hs). assert (Hlen := val_head_nonempty _ Hh).
    assert (Hsk : skip_ws ((w1 ++ s ++ w2 ++ 44 :: t) ++ 93 :: r) = s ++ w2 ++ 44 :: t ++ 93 :: r).
    { repeat (rewrite <- !app_assoc; cbn [app]). apply skip_ws_app; [assumption | apply val_head_nows, Hh]. }
    split.
    + cbn [pelems]. rewrite Hsk, IH; auto.
      * rewrite skip_ws_app by (auto; reflexivity). replace (44 =? 44) with true by lia.
        destruct (IHt Hok4 f r Hr ltac:(lia)) as (-> & _). reflexivity.
      * apply bytes_ok_app. split; [assumption | constructor; [assumption|]]. apply bytes_ok_app. split; [assumption | constructor; assumption].
      * apply ws_stop; [assumption | reflexivity].
      * lia.
    + rewrite Hsk. destruct Hh as (c & t' & -> & _ & Hc & _). exists c, (t' ++ w2 ++ 44 :: t ++ 93 :: r). auto.
  - intros w1 k ks w2 w3 v s w4 Hw1 Hk Hw2 Hw3 Hs IH Hw4 Hok fuel r Hr Hf. destruct fuel as [|f]; [lia|].
    rewrite bytes_ok_app, bytes_ok_cons, bytes_ok_app, bytes_ok_cons, bytes_ok_app, bytes_ok_cons, !bytes_ok_app in Hok.
    destruct Hok as (Hok1 & _ & Hok2 & _ & Hok3 & _ & Hok4 & Hok5 & Hok6).
    repeat (rewrite app_length in Hf; cbn [length] in Hf).
    assert (Hh := json_head _ _ _ _ Hs).
    assert (Hsk : skip_ws ((w1 ++ 34 :: ks ++ 34 :: w2 ++ 58 :: w3 ++ s ++ w4) ++ 125 :: r) =
                  34 :: ks ++ 34 :: w2 ++ 58 :: w3 ++ s ++ w4 ++ 125 :: r).
    { repeat (rewrite <- !app_assoc; cbn [app]). apply skip_ws_app; [assumption | reflexivity]. }
    assert (R1 : bytes_ok (w4 ++ 125 :: r)) by (apply bytes_ok_app; split; [assumption | constructor; assumption]).
    assert (R2 : bytes_ok (w2 ++ 58 :: w3 ++ s ++ w4 ++ 125 :: r)).
    { apply bytes_ok_app. split; [assumption|]. constructor; [assumption|]. apply bytes_ok_app. split; [assumption|].
      apply bytes_ok_app; split; assumption. }
    split.
    + cbn [pmembers]. rewrite Hsk. replace (34 =? 34) with true by lia.
      rewrite (pstr_complete lax k ks Hk Hok2) by (auto; rewrite app_length; lia).
      rewrite skip_ws_app by (auto; reflexivity). replace (58 =? 58) with true by lia.
      rewrite skip_ws_app; [|assumption | apply val_head_nows, Hh].
      rewrite IH; auto; [|apply ws_stop; [assumption | reflexivity] | lia].
      rewrite skip_ws_app by (auto; reflexivity). reflexivity.
    + rewrite Hsk. exists 34; eexists. split; [reflexivity | lia].
  - intros w1 k ks w2 w3 v s w4 ms t Hw1 Hk Hw2 Hw3 Hs IH Hw4 Ht IHt Hok fuel r Hr Hf. destruct fuel as [|f]; [lia|].
    rewrite bytes_ok_app, bytes_ok_cons, bytes_ok_app, bytes_ok_cons, bytes_ok_app, bytes_ok_cons, !bytes_ok_app, bytes_ok_cons in Hok.
    destruct Hok as (Hok1 & _ & Hok2 & _ & Hok3 & _ & Hok4 & Hok5 & Hok6 & _ & Hok7).
    repeat (rewrite app_length in Hf; cbn [length] in Hf).
    assert (Hh := json_head _ _ _ _ Hs).
    assert (Hsk : skip_ws ((w1 ++ 34 :: ks ++ 34 :: w2 ++ 58 :: w3 ++ s ++ w4 ++ 44 :: t) ++ 125 :: r) =
                  34 :: ks ++ 34 :: w2 ++ 58 :: w3 ++ s ++ w4 ++ 44 :: t ++ 125 :: r).
    { repeat (rewrite <- !app_assoc; cbn [app]). apply skip_ws_app; [assumption | reflexivity]. }
    assert (R1 : bytes_ok (w4 ++ 44 :: t ++ 125 :: r)).
    { apply bytes_ok_app; split; [assumption | constructor; [assumption|]]. apply bytes_ok_app; split; [assumption | constructor; assumption]. }
    assert (R2 : bytes_ok (w2 ++ 58 :: w3 ++ s ++ w4 ++ 44 :: t ++ 125 :: r)).
    { apply bytes_ok_app. split; [assumption|]. constructor; [assumption|]. apply bytes_ok_app. split; [assumption|].
      apply bytes_ok_app; split; assumption. }
    split.
    + cbn [pmembers]. rewrite Hsk. replace (34 =? 34) with true by lia.
      rewrite (pstr_complete lax k ks Hk Hok2) by (auto; rewrite app_length; lia).
      rewrite skip_ws_app by (auto; reflexivity). replace (58 =? 58) with true by lia.
      rewrite skip_ws_app; [|assumption | apply val_head_nows, Hh].
      rewrite IH; auto; [|apply ws_stop; [assumption | reflexivity] | lia].
      rewrite skip_ws_app by (auto; reflexivity). replace (44 =? 44) with true by lia.
      destruct (IHt Hok7 f r Hr ltac:(lia)) as (-> & _). reflexivity.
    + rewrite Hsk. exists 34; eexists. split; [reflexivity | lia].
Qed.

(** ** The reader decides the grammar *)
Theorem parse_json_correct s v : bytes_ok s -> (parse_json s = Some v <-> json_text true v s).
Proof.
  intros Hok. unfold parse_json. split.
  - intros H. destruct (skip_ws_split s) as (w1 & Hw1 & Es).
    destruct (pval (2 * length s + 1) (skip_ws s)) as [[v' r]|] eqn:E; [|discriminate].
    destruct (skip_ws_split r) as (w2 & Hw2 & Er). destruct (skip_ws r) as [|]; [|discriminate]. injection H as ->.
    apply (proj1 (parse_sound _)) in E.
    2:{ rewrite Es in Hok. apply bytes_ok_app in Hok. tauto. }
    destruct E as (t & Et & Ht). exists w1, t, w2. rewrite app_nil_r in Er. subst r.
    rewrite <- Et, <- Es. auto.
  - intros (w1 & t & w2 & -> & Hw1 & Hw2 & Ht).
    rewrite skip_ws_app; [|assumption | apply val_head_nows; eapply json_head; eauto].
    rewrite !bytes_ok_app in Hok. destruct Hok as (Hok1 & Hok2 & Hok3).
    rewrite (proj1 (parse_complete true) v t Ht); auto.
    + rewrite <- (app_nil_r w2), skip_ws_app by (auto; exact I). reflexivity.
    + rewrite <- (app_nil_r w2). apply ws_stop; [assumption | exact I].
    + rewrite !app_length. lia.
Qed.

Corollary json_valid_correct s : bytes_ok s -> (json_valid s = true <-> exists v, json_text true v s).
Proof.
  intros Hok. unfold json_valid. split.
  - destruct (parse_json s) as [v|] eqn:E; [|discriminate]. intros _. exists v. apply parse_json_correct; assumption.
  - intros [v Hv]. apply parse_json_correct in Hv; [|assumption]. rewrite Hv. reflexivity.
Qed.

(** Strict JSON is lax JSON. *)
Lemma json_lax_mut W :
  (forall v s, json W false v s -> json W true v s) /\
  (forall vs s, jelems W false vs s -> jelems W true vs s) /\
  (forall ms s, jmembers W false ms s -> jmembers W true ms s).
Proof. apply json_mutind; intros; econstructor; eauto using jchars_lax. Qed.

Lemma json_text_lax v s : json_text false v s -> json_text true v s.
Proof. intros (w1 & t & w2 & ? & ? & ? & ?). exists w1, t, w2. repeat split; auto. apply json_lax_mut; assumption. Qed.

(** A text denotes at most one value. *)
Theorem json_text_det lax1 lax2 s v1 v2 : bytes_ok s -> json_text lax1 v1 s -> json_text lax2 v2 s -> v1 = v2.
Proof.
  intros Hok H1 H2.
  assert (L : forall l v, json_text l v s -> json_text true v s) by (intros [|] v H; [assumption | apply json_text_lax, H]).
  apply L in H1. apply L in H2.
  apply parse_json_correct in H1; [|assumption]. apply parse_json_correct in H2; [|assumption]. congruence.
Qed.
