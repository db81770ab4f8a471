(** The reference encoder: more fuel does not change a result, and every value
    held in memory has enough. *)
From Verif Require Import Base IntModel JsonSpec OptionsModel TypesModel TypesFacts TagsModel TagsProof TimeModel FloatModel DurationModel LeafModel MemModel
  FieldsSpec FieldsModel FieldsProof FieldsThm InstrModel ExecModel ValueModel ExecMono ExecProof.

Definition vle (r1 r2 : vres) : Prop := r1 = VFuel \/ r1 = r2.

Lemma vle_refl r : vle r r.
Proof. right. reflexivity. Qed.

Section Mono.
  Variable H : host.
  Variable vcall : mkind -> typ -> val -> option Z -> bytes + Z.
  Variable o : encOpts.
  Notation E := (h_env H).

  Definition rle (r1 r2 : typ -> bool -> bool -> val -> vres) : Prop := forall t ca q v, vle (r1 t ca q v) (r2 t ca q v).

  Lemma vthen_mono pre r1 r2 k1 k2 : vle r1 r2 -> (forall b, vle (k1 b) (k2 b)) -> vle (vthen pre r1 k1) (vthen pre r2 k2).
  Proof.
    intros [-> | ->] Hk; [left; reflexivity|]. unfold vthen. destruct r2 as [b [e|]| |]; try (right; reflexivity). apply Hk.
  Qed.

  Lemma vquote_if_mono q r1 r2 : vle r1 r2 -> vle (vquote_if q r1) (vquote_if q r2).
  Proof. intros [-> | ->]; destruct q; cbn; unfold vle; auto. Qed.

  Lemma vfields_mono r1 r2 t ca v fs : rle r1 r2 -> forall first out, vle (vfields H o r1 t ca v fs first out) (vfields H o r2 t ca v fs first out).
  Proof.
    intros Hr. induction fs as [|f fs IH]; intros first out; cbn [vfields]; [apply vle_refl|].
    destruct (isDeniedField o (f_name f)); [apply IH|]. destruct (negb (right_seq H t f)); [apply vle_refl|].
    destruct (vget (f_index f) v) as [[x|]|]; [|destruct (type_by_index H t (f_index f)); apply IH|apply vle_refl].
    destruct (type_by_index H t (f_index f)) as [ft|]; [|apply vle_refl].
    destruct (f_omitNil f && vnil x); [apply IH|]. destruct (f_omitEmpty f && vempty x); [apply IH|].
    destruct (Hr ft ca (f_quoted f && isBasicType E match under E ft with TPtr e => e | _ => ft end) x) as [-> | ->]; [left; reflexivity|].
    destruct (r2 ft ca _ x) as [b [e|]| |]; try apply vle_refl. apply IH.
  Qed.

  Lemma velems_mono r1 r2 e ca vs : rle r1 r2 -> forall first out, vle (velems r1 e ca vs first out) (velems r2 e ca vs first out).
  Proof.
    intros Hr. induction vs as [|v vs IH]; intros first out; cbn [velems]; [apply vle_refl|].
    apply vthen_mono; [apply Hr | intros b; apply IH].
  Qed.

  Lemma vkey_mono r1 r2 kt v : rle r1 r2 -> vle (vkey H o r1 kt v) (vkey H o r2 kt v).
  Proof.
    intros Hr. unfold vkey. destruct (isString E kt); [apply vle_refl|]. destruct (h_impl H kt MText && is_ptr H kt && vnil v); [apply vle_refl|].
    apply vquote_if_mono, Hr.
  Qed.

  Definition ple (p1 p2 : vres * vres) : Prop := vle (fst p1) (fst p2) /\ vle (snd p1) (snd p2).

  Lemma vunsorted_mono es1 es2 : Forall2 ple es1 es2 -> forall first out, vle (vunsorted es1 first out) (vunsorted es2 first out).
  Proof.
    induction 1 as [|[k1 v1] [k2 v2] es1 es2 [Hk Hv] _ IH]; intros first out; cbn [vunsorted]; [apply vle_refl|].
    apply vthen_mono; [exact Hk|]. intros b. apply vthen_mono; [exact Hv|]. intros b'. apply IH.
  Qed.

  Lemma vfill_mono es1 es2 : Forall2 ple es1 es2 -> forall kvs, vfill es1 kvs = VFFuel \/ vfill es1 kvs = vfill es2 kvs.
  Proof.
    induction 1 as [|[k1 v1] [k2 v2] es1 es2 [Hk Hv] _ IH]; intros kvs; cbn [vfill]; [auto|]. cbn [fst snd] in *.
    destruct Hk as [-> | ->]; [left; reflexivity|]. destruct k2 as [kb [ke|]| |]; auto.
    destruct (length kb <? 2)%nat; auto. destruct Hv as [-> | ->]; [left; reflexivity|]. destruct v2 as [vb [ve|]| |]; auto.
  Qed.

  Lemma ventries_mono es1 es2 : Forall2 ple es1 es2 -> vle (ventries H o es1) (ventries H o es2).
  Proof.
    intros He. unfold ventries. apply vthen_mono; [|intros; apply vle_refl]. destruct (has (o_flags o) unsortedMap); [apply vunsorted_mono; exact He|].
    unfold vsorted. destruct (vfill_mono es1 es2 He []) as [-> | ->]; [left; reflexivity | apply vle_refl].
  Qed.

  Lemma ple_map {A} (f g : A -> vres * vres) l : (forall x, In x l -> ple (f x) (g x)) -> Forall2 ple (map f l) (map g l).
  Proof. induction l as [|x l IH]; intros Hl; constructor; [apply Hl; left; reflexivity | apply IH; intros y Hy; apply Hl; right; exact Hy]. Qed.

  Lemma vany_mono r1 r2 n1 n2 t v : rle r1 r2 -> (n1 <= n2)%nat -> vle (vany H r1 n1 t v) (vany H r2 n2 t v).
  Proof.
    intros Hr Hn. unfold vany. destruct (is_direct H n1 t) as [d|] eqn:Ed; [|left; reflexivity]. destruct (isInlined H n1 t) as [b|] eqn:Eb; [|left; reflexivity].
    rewrite (is_direct_mono H n1 n2 t d Ed Hn), (isInlined_mono H n1 n2 t b Eb Hn). destruct (Bool.eqb d b || opaque H t); [apply Hr | apply vle_refl].
  Qed.

  Lemma vsync_mono r1 r2 n1 n2 : rle r1 r2 -> (n1 <= n2)%nat ->
    forall x, vle (vsync_key H o r1 n1 x) (vsync_key H o r2 n2 x) /\ vle (vsync_val H r1 n1 x) (vsync_val H r2 n2 x).
  Proof.
    intros Hr Hn x. destruct x; split; try apply vle_refl; unfold vsync_key, vsync_val; [|apply vany_mono; auto].
    destruct (negb (isString E t) && negb (isInteger E t) && negb (h_impl H t MText)); [apply vle_refl|].
    destruct (isString E t); [apply vle_refl|]. apply vquote_if_mono. apply vany_mono; auto.
  Qed.

  Lemma vmarshaler_mono n1 n2 k t hp v : (n1 <= n2)%nat -> vle (vmarshaler H vcall o n1 k t hp v) (vmarshaler H vcall o n2 k t hp v).
  Proof.
    intros Hn. unfold vmarshaler. destruct hp; [apply vle_refl|].
    destruct (under E t); try apply vle_refl; (destruct (is_direct H n1 t) as [[|]|] eqn:Ed; [| |left; reflexivity]; rewrite (is_direct_mono H n1 n2 t _ Ed Hn); apply vle_refl).
  Qed.

  Lemma venc_step_mono n1 : forall n2, (n1 <= n2)%nat -> rle (venc H vcall o n1) (venc H vcall o n2).
  Proof.
    induction n1 as [|n1 IH]; intros n2 Hn t ca q v; [left; reflexivity|]. destruct n2 as [|n2]; [lia|]. cbn [venc].
    assert (Hr : rle (venc H vcall o n1) (venc H vcall o n2)) by (apply IH; lia).
    destruct (native t).
    - unfold vnative. destruct t; try apply vle_refl; destruct v; try apply vle_refl.
      apply ventries_mono. apply ple_map. intros x _. split; cbn [fst snd]; apply vsync_mono; auto; lia.
    - destruct (method_of H t ca) as [[k hp]|]; [apply vmarshaler_mono; lia|]. unfold vkind.
      destruct (under E t) as [ |ik|fb| | | | | |ms|e|e|an e|kt et|fs|nn| | | | | ]; try apply vle_refl.
      + destruct v; try apply vle_refl. destruct ms; [apply vle_refl|]. apply vany_mono; auto; lia.
      + destruct v; try apply vle_refl. apply Hr.
      + destruct v; try apply vle_refl. destruct (byte_elem H e); [apply vle_refl | apply velems_mono, Hr].
      + destruct v; try apply vle_refl. destruct (byte_elem H e && has (o_flags o) byteArrayAsString); [apply vle_refl | apply velems_mono, Hr].
      + destruct (negb (key_ok H kt)); [apply vle_refl|]. destruct v; try apply vle_refl. destruct es; [apply vle_refl|].
        apply ventries_mono. apply ple_map. intros x _. split; [apply vkey_mono, Hr | apply Hr].
      + destruct v; try apply vle_refl. unfold vstruct. destruct (fields_of H t); [apply vle_refl|].
        destruct (structFields H n1 t) as [sf|] eqn:Es; [|left; reflexivity]. rewrite (structFields_mono H n1 n2 t sf Es ltac:(lia)).
        apply vfields_mono, Hr.
  Qed.

  Lemma venc_mono n1 n2 t ca q v : (n1 <= n2)%nat -> venc H vcall o n1 t ca q v <> VFuel -> venc H vcall o n2 t ca q v = venc H vcall o n1 t ca q v.
  Proof. intros Hn Hf. destruct (venc_step_mono n1 n2 Hn t ca q v) as [E1|E1]; congruence. Qed.

  Lemma venc_any_mono n1 n2 t v : (n1 <= n2)%nat -> venc_any H vcall o n1 t v <> VFuel -> venc_any H vcall o n2 t v = venc_any H vcall o n1 t v.
  Proof.
    intros Hn Hf. unfold venc_any in *. destruct (vany_mono _ _ n1 n2 t v (venc_step_mono n1 n2 Hn) Hn) as [E1|E1]; congruence.
  Qed.
End Mono.

(** ** Totality *)
Fixpoint vsize (v : val) : nat :=
  match v with
  | VPtr v => S (vsize v)
  | VIface _ v => S (vsize v)
  | VSlice vs | VArr vs | VStruct vs => S (fold_right (fun v n => (vsize v + n)%nat) 0%nat vs)
  | VMap es | VSync es => S (fold_right (fun kv n => (vsize (fst kv) + vsize (snd kv) + n)%nat) 0%nat es)
  | _ => 1%nat
  end.

Lemma vsize_pos v : (0 < vsize v)%nat.
Proof. destruct v; cbn; lia. Qed.

Lemma vsize_in vs v : In v vs -> (vsize v < S (fold_right (fun v n => (vsize v + n)%nat) 0%nat vs))%nat.
Proof. induction vs as [|x vs IH]; intros Hi; [destruct Hi|]. cbn [fold_right]. destruct Hi as [->|Hi]; [lia|]. specialize (IH Hi). lia. Qed.

Lemma vsize_entry es k v : In (k, v) es ->
  (vsize k < S (fold_right (fun kv n => (vsize (fst kv) + vsize (snd kv) + n)%nat) 0%nat es) /\
   vsize v < S (fold_right (fun kv n => (vsize (fst kv) + vsize (snd kv) + n)%nat) 0%nat es))%nat.
Proof.
  induction es as [|x es IH]; intros Hi; [destruct Hi|]. cbn [fold_right]. destruct Hi as [->|Hi]; cbn [fst snd]; [lia|]. specialize (IH Hi). lia.
Qed.

Lemma vget_size p : forall v x, vget p v = Some (Some x) -> p <> [] -> (vsize x < vsize v)%nat.
Proof.
  induction p as [|i p IH]; intros v x Hg Hp; [congruence|]. cbn [vget] in Hg. destruct v; try discriminate.
  destruct (nth_error vs i) as [v'|] eqn:En; [|discriminate]. apply nth_error_In in En. assert (Hs := vsize_in _ _ En). cbn [vsize].
  destruct p as [|j p]; [injection Hg as <-; exact Hs|].
  assert (Hw : forall w, vget (j :: p) w = Some (Some x) -> (vsize w <= vsize v')%nat ->
     (vsize x < S (fold_right (fun v n => (vsize v + n)%nat) 0%nat vs))%nat).
  { intros w Hw Hle. assert (X := IH w x Hw ltac:(discriminate)). lia. }
  destruct v'; try (apply (Hw _ Hg); lia); try discriminate. cbn [vsize] in Hw. apply (Hw _ Hg). lia.
Qed.

Section Total.
  Variable H : host.
  Variable vcall : mkind -> typ -> val -> option Z -> bytes + Z.
  Hypothesis OK : host_ok H vcall.
  Variable o : encOpts.
  Variable m : mem.
  Notation E := (h_env H).
  Notation tok := (typ_ok (h_letter H) (h_udigit H)).
  Notation rp := (repr H m).
  Notation enc := (venc H vcall o).

  Definition ends (t : typ) (v : val) : Prop := forall ca q, exists n, enc n t ca q v <> VFuel.

  Lemma ends_all (l : list (typ * val)) : (forall t v, In (t, v) l -> ends t v) ->
    exists n, forall n' t v ca q, (n <= n')%nat -> In (t, v) l -> enc n' t ca q v <> VFuel.
  Proof.
    induction l as [|[t v] l IH]; intros Hl; [exists 0%nat; intros n' t v ca q _ []|].
    destruct IH as [n Hn]; [intros t' v' Hi; apply Hl; right; exact Hi|].
    assert (He := Hl t v (or_introl eq_refl)).
    destruct (He true true) as [n1 H1], (He true false) as [n2 H2], (He false true) as [n3 H3], (He false false) as [n4 H4].
    exists (Nat.max n (Nat.max n1 (Nat.max n2 (Nat.max n3 n4)))). intros n' t' v' ca q Hle [[= -> ->]|Hi].
    - destruct ca, q; [rewrite (venc_mono H vcall o n1 n') | rewrite (venc_mono H vcall o n2 n') | rewrite (venc_mono H vcall o n3 n') | rewrite (venc_mono H vcall o n4 n')]; auto; lia.
    - apply Hn; auto. lia.
  Qed.

  Lemma vthen_nofuel pre r k : r <> VFuel -> (forall b, k b <> VFuel) -> vthen pre r k <> VFuel.
  Proof. intros Hr Hk. unfold vthen. destruct r as [b [e|]| |]; try congruence; try discriminate. Qed.

  Lemma vquote_if_nofuel q r : r <> VFuel -> vquote_if q r <> VFuel.
  Proof. intros Hr. destruct q; [|exact Hr]. unfold vquote_if, vquote. destruct r as [b [e|]| |]; congruence. Qed.

  Lemma lift_nofuel r : r <> OutOfFuel -> lift r <> VFuel.
  Proof. intros Hr. destruct r; cbn; try discriminate. congruence. Qed.

  Lemma velems_nofuel rec e ca vs : (forall v, In v vs -> rec e ca false v <> VFuel) -> forall first out, velems rec e ca vs first out <> VFuel.
  Proof.
    induction vs as [|v vs IH]; intros Hv first out; cbn [velems]; [destruct first; discriminate|].
    apply vthen_nofuel; [apply Hv; left; reflexivity | intros b; apply IH; intros x Hx; apply Hv; right; exact Hx].
  Qed.

  Lemma vfields_nofuel rec t ca v fs :
    (forall f x ft q, In f fs -> vget (f_index f) v = Some (Some x) -> type_by_index H t (f_index f) = Some ft -> rec ft ca q x <> VFuel) ->
    forall first out, vfields H o rec t ca v fs first out <> VFuel.
  Proof.
    induction fs as [|f fs IH]; intros Hf first out; cbn [vfields]; [destruct first; discriminate|].
    assert (IH' : forall first out, vfields H o rec t ca v fs first out <> VFuel) by (apply IH; intros g x ft q Hg; apply Hf; right; exact Hg).
    destruct (isDeniedField o (f_name f)); [apply IH'|]. destruct (negb (right_seq H t f)); [discriminate|].
    destruct (vget (f_index f) v) as [[x|]|] eqn:Ev; [|apply IH'|discriminate].
    destruct (type_by_index H t (f_index f)) as [ft|] eqn:Et; [|discriminate].
    destruct (f_omitNil f && vnil x); [apply IH'|]. destruct (f_omitEmpty f && vempty x); [apply IH'|].
    assert (R := Hf f x ft (f_quoted f && isBasicType E match under E ft with TPtr e => e | _ => ft end) (or_introl eq_refl) Ev Et).
    destruct (rec ft ca _ x) as [b [e|]| |]; try congruence; try discriminate.
  Qed.

  Lemma ventries_nofuel es : (forall k v, In (k, v) es -> k <> VFuel /\ v <> VFuel) -> ventries H o es <> VFuel.
  Proof.
    intros He. unfold ventries. apply vthen_nofuel; [|intros; discriminate]. destruct (has (o_flags o) unsortedMap).
    - generalize true as first, [123] as out. induction es as [|[k v] es IH]; intros first out; cbn [vunsorted]; [discriminate|].
      destruct (He k v (or_introl eq_refl)) as [Hk Hv].
      apply vthen_nofuel; [exact Hk|]. intros b. apply vthen_nofuel; [exact Hv|]. intros b'. apply IH. intros k' v' Hi. apply He. right. exact Hi.
    - unfold vsorted. assert (G : forall kvs, vfill es kvs <> VFFuel).
      { induction es as [|[k v] es IH]; intros kvs; cbn [vfill]; [discriminate|]. destruct (He k v (or_introl eq_refl)) as [Hk Hv].
        assert (IH' := IH (fun k' v' Hi => He k' v' (or_intror Hi))).
        destruct k as [kb [ke|]| |]; try discriminate; try congruence. destruct (length kb <? 2)%nat; [discriminate|].
        destruct v as [vb [ve|]| |]; try discriminate; try congruence. }
      specialize (G []). destruct (vfill es []); try discriminate. congruence.
  Qed.

  Lemma appendFloat_nofuel sh dst f b : appendFloat sh dst f b <> OutOfFuel.
  Proof. unfold appendFloat. destruct f; try discriminate. Qed.

  Lemma method_nofuel k t td v : vmethod vcall o k t td v <> VFuel.
  Proof.
    unfold vmethod, encode_json_result, encode_text_result. destruct k.
    - destruct (vcall MCtx td v (o_ctx o)); discriminate.
    - destruct (vcall MApp td v None); discriminate.
    - destruct (vcall MJson td v None) as [b|e]; [|discriminate]. destruct (has (o_flags o) noCompact); [discriminate|].
      destruct (negb (JsonParse.json_valid b)); discriminate.
    - destruct (vcall MText td v None); discriminate.
  Qed.

  Lemma vany_nofuel t v : tok t -> ends t v -> exists n, forall n', (n <= n')%nat -> vany H (enc n') n' t v <> VFuel.
  Proof.
    intros Ht Hv. destruct (ok_direct _ _ OK t Ht) as (k1 & d & Hd). destruct (ok_inlined _ _ OK t Ht) as (k2 & b & Hb).
    destruct (Hv (is_ptr H t) false) as (k3 & H3). exists (Nat.max k1 (Nat.max k2 k3)). intros n' Hn. unfold vany.
    rewrite (is_direct_mono H k1 n' t d Hd) by lia. rewrite (isInlined_mono H k2 n' t b Hb) by lia.
    destruct (Bool.eqb d b || opaque H t); [|discriminate]. rewrite (venc_mono H vcall o k3 n'); auto; lia.
  Qed.

  Lemma sync_nofuel (l : list val) : (forall x, In x l -> match x with VIface t v => tok t /\ ends t v | _ => True end) ->
    exists n, forall n' x, (n <= n')%nat -> In x l -> vsync_key H o (enc n') n' x <> VFuel /\ vsync_val H (enc n') n' x <> VFuel.
  Proof.
    induction l as [|x l IH]; intros Hl; [exists 0%nat; intros n' x _ []|].
    destruct IH as [n Hn]; [intros y Hy; apply Hl; right; exact Hy|]. assert (Hx := Hl x (or_introl eq_refl)).
    assert (G : exists n, forall n', (n <= n')%nat -> vsync_key H o (enc n') n' x <> VFuel /\ vsync_val H (enc n') n' x <> VFuel).
    { destruct x; try (exists 0%nat; intros n' _; split; discriminate). destruct Hx as [Ht He].
      destruct (vany_nofuel t x Ht He) as [k Hk]. exists k. intros n' Hn'. specialize (Hk n' Hn'). split; [|exact Hk]. unfold vsync_key.
      destruct (negb (isString E t) && negb (isInteger E t) && negb (h_impl H t MText)); [discriminate|].
      destruct (isString E t); [destruct x; discriminate|]. apply vquote_if_nofuel. exact Hk. }
    destruct G as [n1 H1]. exists (Nat.max n n1). intros n' y Hn' [<-|Hy]; [apply H1; lia | apply Hn; auto; lia].
  Qed.

  Theorem venc_total v : forall l t, tok t -> rp l t v -> ends t v.
  Proof.
    remember (vsize v) as sz eqn:Esz. revert v Esz. induction sz as [sz IH] using lt_wf_ind. intros v -> l t Ht Hr ca q.
    assert (IHv : forall v' l' t', (vsize v' < vsize v)%nat -> tok t' -> rp l' t' v' -> ends t' v') by (intros v' l' t' Hs; apply (IH (vsize v') Hs v' eq_refl)).
    clear IH.
    assert (Via : (exists n, (if native t then vnative H o (enc n) n t v
        else match method_of H t ca with Some (k, hp) => vmarshaler H vcall o n k t hp v | None => vkind H o (enc n) n t ca q v end) <> VFuel) ->
      exists n, enc n t ca q v <> VFuel) by (intros [n Hn]; exists (S n); exact Hn).
    apply Via. clear Via. destruct (native t) eqn:En.
    { unfold vnative. destruct t; try discriminate En.
      - exists 0%nat. destruct v; try discriminate. unfold encode_time. repeat match goal with |- context [if ?b then _ else _] => destruct b; try discriminate end.
        all: unfold ret_opt; match goal with |- context [match ?x with Some _ => _ | None => _ end] => destruct x; discriminate end.
      - exists 0%nat. destruct v; try discriminate. unfold encode_duration. repeat match goal with |- context [if ?b then _ else _] => destruct b; try discriminate end;
        try (apply lift_nofuel, appendFloat_nofuel). destruct (append_duration _ _); discriminate.
      - exists 0%nat. destruct v; try discriminate. unfold encode_number. repeat match goal with |- context [if ?b then _ else _] => destruct b; try discriminate end.
      - exists 0%nat. destruct v; try discriminate. destruct (vbytes vs); [|discriminate]. unfold encode_raw_message.
        destruct (has (o_flags o) noCompact); discriminate.
      - destruct v; try (exists 0%nat; discriminate). destruct (inv_sync H m _ _ _ Hr) as (_ & efs & Q1 & Q2 & Q3).
        assert (Hall : forall x, In x (map fst es ++ map snd es) -> match x with VIface t v => tok t /\ ends t v | _ => True end).
        { intros x Hx. assert (Hex : exists kv, In kv es /\ (x = fst kv \/ x = snd kv)).
          { apply in_app_iff in Hx. destruct Hx as [Hx|Hx]; apply in_map_iff in Hx; destruct Hx as (kv & <- & Hi); exists kv; auto. }
          destruct Hex as ([kv vv] & Hi & Hx'). assert (Hsz := vsize_entry _ _ _ Hi).
          destruct (In_nth_error _ _ Hi) as [j Hj]. destruct (nth_error efs j) as [[ke ve]|] eqn:Ej.
          2:{ apply nth_error_None in Ej. assert (j < length es)%nat by (apply nth_error_Some; congruence). lia. }
          destruct (Q3 _ _ _ _ _ Ej Hj) as [W1 W2]. cbn [fst snd] in Hx'.
          assert (Ha : forall e y, repr_any H m e y -> (vsize y < vsize (VSync es))%nat -> match y with VIface t v => tok t /\ ends t v | _ => True end).
          { intros e y Hy Hly. destruct Hy as [|td w y Hty _ Hd Hnd]; [exact I|]. split; [exact Hty|].
            destruct (direct_dec H vcall OK td Hty) as [D|D]; [apply (IHv y (LTmp w 0)); auto | apply (IHv y (LMem w)); auto]; cbn [vsize] in *; lia. }
          destruct Hx' as [-> | ->]; [apply (Ha _ _ W1) | apply (Ha _ _ W2)]; cbn [vsize]; lia. }
        destruct (sync_nofuel _ Hall) as [n Hn]. exists n. apply ventries_nofuel. intros k' v' Hi. apply in_map_iff in Hi.
        destruct Hi as ([kv vv] & [= <- <-] & Hi). cbn [fst snd]. split; apply (Hn n); auto; apply in_app_iff; [left | right]; apply in_map_iff; [exists (kv, vv) | exists (kv, vv)]; auto. }
    destruct (method_of H t ca) as [[k hp]|].
    { destruct (ok_direct _ _ OK t Ht) as (n & d & Hd). exists n. unfold vmarshaler. destruct hp; [apply method_nofuel|].
      destruct (under E t); try (rewrite Hd; destruct d; [discriminate | apply method_nofuel]); destruct v; try discriminate; apply method_nofuel. }
    unfold vkind. destruct (under E t) as [ |ik|fb| | | | | |ms|e|e|an e|kt et|fs|nn| | | | | ] eqn:Eu; try (exists 0%nat; discriminate).
    - exists 0%nat. destruct v; try discriminate. apply vquote_if_nofuel. discriminate.
    - exists 0%nat. destruct v; try discriminate. apply vquote_if_nofuel. discriminate.
    - exists 0%nat. destruct v; try discriminate. apply vquote_if_nofuel. apply lift_nofuel, appendFloat_nofuel.
    - exists 0%nat. destruct v; discriminate.
    - destruct v; try (exists 0%nat; destruct ms; discriminate). destruct ms; [exists 0%nat; discriminate|].
      destruct (inv_iface _ _ _ _ _ _ Hr) as (ms & w & Q1 & Q2 & Q3 & Q4 & Q5 & Q6 & Q7).
      assert (He : ends t0 v). { destruct (direct_dec H vcall OK t0 Q4) as [D|D]; [apply (IHv v (LTmp w 0)); auto | apply (IHv v (LMem w)); auto]; cbn [vsize]; lia. }
      destruct (vany_nofuel t0 v Q4 He) as [n Hn]. exists n. apply Hn. lia.
    - destruct v; try (exists 0%nat; discriminate). destruct (inv_ptr _ _ _ _ _ Hr) as (e0 & a & Q1 & Q2 & Q3 & Q4). rewrite Eu in Q1. injection Q1 as <-.
      assert (Te : tok e). { assert (G := under_ok H (ok_wf _ _ OK) t Ht). rewrite Eu in G. exact G. }
      apply (IHv v (LMem a) e); auto; cbn [vsize]; lia.
    - destruct v; try (exists 0%nat; try destruct (byte_elem H e); discriminate). destruct (byte_elem H e); [exists 0%nat; destruct (vbytes vs); discriminate|].
      destruct (inv_slice _ _ _ _ _ Hr) as (e0 & a & Q1 & Q2 & Q3 & Q4). rewrite Eu in Q1. injection Q1 as <-.
      assert (Te : tok e). { assert (G := under_ok H (ok_wf _ _ OK) t Ht). rewrite Eu in G. exact G. }
      destruct (ends_all (map (pair e) vs)) as [n Hn].
      { intros t' v' Hi. apply in_map_iff in Hi. destruct Hi as (x & [= <- <-] & Hi). destruct (In_nth_error _ _ Hi) as [j Hj].
        eapply IHv; [|exact Te|apply (Q4 j); exact Hj]. apply vsize_in. exact Hi. }
      exists n. apply velems_nofuel. intros v Hi. apply (Hn n); [lia|]. apply in_map_iff. eauto.
    - destruct v; try (exists 0%nat; discriminate). destruct (byte_elem H e && has (o_flags o) byteArrayAsString); [exists 0%nat; destruct (vbytes vs); discriminate|].
      destruct (inv_arr _ _ _ _ _ Hr) as (e0 & Q1 & Q4). rewrite Eu in Q1. injection Q1 as -> <-.
      assert (Te : tok e). { assert (G := under_ok H (ok_wf _ _ OK) t Ht). rewrite Eu in G. exact G. }
      destruct (ends_all (map (pair e) vs)) as [n Hn].
      { intros t' v' Hi. apply in_map_iff in Hi. destruct Hi as (x & [= <- <-] & Hi). destruct (In_nth_error _ _ Hi) as [j Hj].
        eapply IHv; [|exact Te|apply (Q4 j); exact Hj]. apply vsize_in. exact Hi. }
      exists n. apply velems_nofuel. intros v Hi. apply (Hn n); [lia|]. apply in_map_iff. eauto.
    - destruct (negb (key_ok H kt)); [exists 0%nat; discriminate|]. destruct v; try (exists 0%nat; discriminate). destruct es as [|kv0 es0]; [exists 0%nat; discriminate|].
      set (es := kv0 :: es0) in *. destruct (inv_map _ _ _ _ _ Hr) as (k0 & e0 & a & addrs & Q1 & Q2 & Q3 & Q4 & Q5 & Q6). rewrite Eu in Q1. injection Q1 as <- <-.
      assert (Tk : tok kt /\ tok et). { assert (G := under_ok H (ok_wf _ _ OK) t Ht). rewrite Eu in G. exact G. } destruct Tk as [Tk Te].
      destruct (ends_all (map (fun kv => (kt, fst kv)) es ++ map (fun kv => (et, snd kv)) es)) as [n Hn].
      { intros t' v' Hi. assert (Hex : exists kv, In kv es /\ ((t', v') = (kt, fst kv) \/ (t', v') = (et, snd kv))).
        { apply in_app_iff in Hi. destruct Hi as [Hi|Hi]; apply in_map_iff in Hi; destruct Hi as (kv & <- & Hi); exists kv; auto. }
        destruct Hex as ([kv vv] & Hi' & Hx). assert (Hsz := vsize_entry _ _ _ Hi').
        destruct (In_nth_error _ _ Hi') as [j Hj]. destruct (nth_error addrs j) as [[ka va]|] eqn:Ej.
        2:{ apply nth_error_None in Ej. assert (j < length es)%nat by (apply nth_error_Some; congruence). lia. }
        destruct (Q6 _ _ _ _ _ Ej Hj) as [W1 W2]. cbn [fst snd] in Hx. destruct Hx as [[= -> ->]|[= -> ->]]; eapply IHv; eauto; cbn [vsize]; lia. }
      exists n. apply ventries_nofuel. intros k' v' Hi. apply in_map_iff in Hi. destruct Hi as (kv & [= <- <-] & Hi). split.
      + unfold vkey. destruct (isString E kt); [destruct (fst kv); discriminate|]. destruct (_ && vnil _); [discriminate|]. apply vquote_if_nofuel.
        apply (Hn n); [lia|]. apply in_app_iff. left. apply in_map_iff. exists kv. auto.
      + apply (Hn n); [lia|]. apply in_app_iff. right. apply in_map_iff. exists kv. auto.
    - destruct v; try (exists 0%nat; discriminate). unfold vstruct. destruct (fields_of H t) as [|f0 fs0] eqn:Ef; [exists 0%nat; discriminate|].
      destruct (ok_fields _ _ OK t Ht) as (ks & sfs & Hs).
      set (sub := fun f => match vget (f_index f) (VStruct vs), type_by_index H t (f_index f) with Some (Some x), Some ft => [(ft, x)] | _, _ => [] end).
      destruct (ends_all (flat_map sub sfs)) as [n Hn].
      { intros t' v' Hi. apply in_flat_map in Hi. destruct Hi as (f & Hf & Hi). unfold sub in Hi.
        destruct (vget (f_index f) (VStruct vs)) as [[x|]|] eqn:Ev; try destruct Hi. destruct (type_by_index H t (f_index f)) as [ft|] eqn:Et; [|destruct Hi].
        destruct Hi as [[= -> ->]|[]].
        destruct (field_candidate H vcall OK ks t sfs f Ht Hs Hf) as (p & sq & w & i & d & u & Ei & Hp & Hw & Hi & Hsq).
        assert (Hu := promoted_type H _ _ _ _ _ _ _ Hp Hi Hw). rewrite <- Ei, Et in Hu. injection Hu as <-.
        assert (Hfo := follow_vget H vcall OK m _ _ _ _ _ _ _ _ _ Hp Hr Hi Hw). rewrite <- Ei, Ev in Hfo. destruct Hfo as (l' & _ & Hx & _).
        eapply IHv; [|eapply type_by_index_ok; eauto|exact Hx]. eapply vget_size; eauto. rewrite Ei. destruct p; discriminate. }
      exists (Nat.max n ks). rewrite (structFields_mono H ks _ t sfs Hs) by lia. apply vfields_nofuel. intros f x ft q' Hf Hx Hft.
      apply (Hn (Nat.max n ks)); [lia|]. apply in_flat_map. exists f. split; [exact Hf|]. unfold sub. rewrite Hx, Hft. left. reflexivity.
  Qed.
End Total.
