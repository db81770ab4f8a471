(** Running the instructions on memory that holds a value gives the reference
    encoding of the value. *)
From Verif Require Import Base IntModel JsonSpec OptionsModel EscapeModel EscapeProof TypesModel TypesFacts
  TagsModel TagsProof TimeModel FloatModel LeafModel LeafProof Base64Model MemModel
  FieldsSpec FieldsModel FieldsProof FieldsThm InstrModel ExecModel ValueModel ExecMono ExecLeaf.

(** ** What is assumed of reflect and of user methods *)
Section Contract.
  Variable H : host.
  Variable vcall : mkind -> typ -> val -> option Z -> bytes + Z.
  Notation tok := (typ_ok (h_letter H) (h_udigit H)).

  Record host_ok : Prop := {
    ok_wf : wf_host H;
    (* building instructions ends: no recursive type without a struct *)
    ok_compile : forall t ca q, tok t -> exists k i, compile H k t ca q = Some i;
    ok_inlined : forall t, tok t -> exists k b, isInlined H k t = Some b;
    ok_direct : forall t, tok t -> exists k b, is_direct H k t = Some b;
    ok_fields : forall t, tok t -> exists k fs, structFields H k t = Some fs;
    (* memory layout *)
    ok_byte : forall t, under (h_env H) t = TInt KUint8 -> h_size H t = 1;
    ok_size : forall t, 0 <= h_size H t;
    ok_off : forall fs i, 0 <= h_off H fs i;
    (* a method called on a value returns what [vcall] says, appending if it is
       an append method, whatever else is in memory *)
    ok_call : forall k td wl m v ctx dst, word_repr H m td wl v ->
      h_call H k td wl m ctx dst =
        Some match vcall k td v ctx with
             | inl b => inl match k with MCtx | MApp => dst ++ b | _ => b end
             | inr e => inr e
             end;
    ok_bytes : forall k td v ctx b, vcall k td v ctx = inl b -> bytes_ok b
  }.
End Contract.

Section Refine.
  Variable H : host.
  Variable vcall : mkind -> typ -> val -> option Z -> bytes + Z.
  Hypothesis OK : host_ok H vcall.
  Variable o : encOpts.
  Variable m : mem.
  Notation E := (h_env H).
  Notation tok := (typ_ok (h_letter H) (h_udigit H)).
  Notation rp := (repr H m).

  (** ** Reading memory *)
  Lemma direct_false_iface t ms : under E t = TIface ms -> ~ direct H t.
  Proof. intros Hu Hd. inversion Hd; subst; congruence. Qed.

  Lemma is_direct_spec n : forall t b, is_direct H n t = Some b -> (b = true <-> direct H t).
  Proof.
    induction n as [|n IH]; intros t b Hd; [discriminate|]. cbn [is_direct] in Hd.
    assert (No : forall x, Some false = Some x -> (forall e, under E t <> TPtr e) -> (forall k e, under E t <> TMap k e) -> under E t <> TChan ->
              under E t <> TFunc -> under E t <> TUnsafePointer -> (forall d u, under E t <> TStruct [(d, u)]) -> (forall u, under E t <> TArray 1 u) ->
              (x = true <-> direct H t)).
    { intros x [= <-] N1 N2 N3 N4 N5 N6 N7. split; [discriminate|]. intros Hx. destruct Hx; exfalso.
      - eapply N1; eauto. - eapply N2; eauto. - auto. - auto. - auto. - eapply N6; eauto. - eapply N7; eauto. }
    destruct (under E t) eqn:Eu; try (apply No; auto; discriminate).
    - injection Hd as <-. split; [intros _; eapply d_chan; eauto | reflexivity].
    - injection Hd as <-. split; [intros _; eapply d_func; eauto | reflexivity].
    - injection Hd as <-. split; [intros _; eapply d_unsafe; eauto | reflexivity].
    - injection Hd as <-. split; [intros _; eapply d_ptr; eauto | reflexivity].
    - destruct n0 as [|[|k]]; try (apply No; auto; discriminate).
      rewrite (IH _ _ Hd). split; [intros Hx; eapply d_array; eauto|].
      intros Hx. inversion Hx; subst; congruence.
    - injection Hd as <-. split; [intros _; eapply d_map; eauto | reflexivity].
    - destruct fs as [|[d u] [|du fs]]; try (apply No; auto; discriminate).
      rewrite (IH _ _ Hd). split; [intros Hx; eapply d_struct; eauto | intros Hx; inversion Hx; subst; congruence].
  Qed.

  Lemma rd_bytes_len n : forall a b, rd_bytes m a n = Some b -> length b = n.
  Proof.
    induction n as [|n IH]; intros a b; cbn [rd_bytes]; [intros [= <-]; reflexivity|].
    destruct (rd_int m (LMem a) KUint8); [|discriminate]. destruct (rd_bytes m (a + 1) n) eqn:Er; [|discriminate].
    intros [= <-]. cbn [length]. erewrite IH; eauto.
  Qed.

  Lemma rd_header_parts l a n : rd_header m l = Some (a, n) -> rd m l = Some (CPtr a) /\ rd_int m (ladd l 8) KInt = Some n /\ 0 <= n.
  Proof.
    unfold rd_header. destruct (rd m l) as [[]|]; try discriminate. destruct (rd_int m (ladd l 8) KInt) as [n'|]; [|discriminate].
    destruct (0 <=? n') eqn:En; [|discriminate]. intros [= <- <-]. repeat split; lia.
  Qed.

  Lemma rd_string_len l s : rd_string m l = Some s -> rd_int m (ladd l 8) KInt = Some (Z.of_nat (length s)).
  Proof.
    unfold rd_string. destruct (rd_header m l) as [[a n]|] eqn:Eh; [|discriminate]. intros Hs. apply rd_bytes_len in Hs.
    destruct (rd_header_parts _ _ _ Eh) as (_ & -> & Hn). f_equal. lia.
  Qed.

  (** Inversion of [repr], by value. *)
  Lemma inv_bool l t b : rp l t (VBool b) -> under E t = TBool /\ rd m l = Some (CBool b).
  Proof. intros Hr. inversion Hr; subst; auto. Qed.
  Lemma inv_int l t n : rp l t (VInt n) -> exists k, under E t = TInt k /\ rd_int m l k = Some n /\ int_range k n.
  Proof. intros Hr. inversion Hr; subst; eauto. Qed.
  Lemma inv_float l t f : rp l t (VFloat f) -> exists b, under E t = TFloat b /\ rd m l = Some (CFloat b f).
  Proof. intros Hr. inversion Hr; subst; eauto. Qed.
  Lemma inv_str l t s : rp l t (VStr s) -> under E t = TString /\ rd_string m l = Some s /\ bytes_ok s.
  Proof. intros Hr. inversion Hr; subst; auto. Qed.
  Lemma inv_nil l t : rp l t VNil -> under E t <> TString /\ isNilable E t = true /\ rd m l = Some (CPtr 0) /\
    ((exists e, under E t = TSlice e) -> rd_int m (ladd l 8) KInt = Some 0).
  Proof. intros Hr. inversion Hr; subst; auto. Qed.
  Lemma inv_ptr l t v : rp l t (VPtr v) -> exists e a, under E t = TPtr e /\ rd m l = Some (CPtr a) /\ 0 < a /\ rp (LMem a) e v.
  Proof. intros Hr. inversion Hr; subst; eauto 8. Qed.
  Lemma inv_iface l t td v : rp l t (VIface td v) -> exists ms w, under E t = TIface ms /\
    rd m l = Some (match ms with None => CType td | Some _ => CTab td end) /\ rd m (ladd l 8) = Some (CPtr w) /\
    tok td /\ is_iface H td = false /\ (direct H td -> rp (LTmp w 0) td v) /\ (~ direct H td -> rp (LMem w) td v).
  Proof. intros Hr. inversion Hr; subst. eexists. eexists. repeat (split; [eassumption|]). assumption. Qed.
  Lemma inv_slice l t vs : rp l t (VSlice vs) -> exists e a, under E t = TSlice e /\ rd_header m l = Some (a, Z.of_nat (length vs)) /\ 0 < a /\
    (forall i v, nth_error vs i = Some v -> rp (LMem (a + Z.of_nat i * h_size H e)) e v).
  Proof. intros Hr. inversion Hr; subst. eexists. eexists. repeat (split; [eassumption|]). assumption. Qed.
  Lemma inv_arr l t vs : rp l t (VArr vs) -> exists e, under E t = TArray (length vs) e /\
    (forall i v, nth_error vs i = Some v -> rp (ladd l (Z.of_nat i * h_size H e)) e v).
  Proof. intros Hr. inversion Hr; subst. eexists. split; eassumption. Qed.
  Lemma inv_map l t es : rp l t (VMap es) -> exists k e a addrs, under E t = TMap k e /\ rd m l = Some (CPtr a) /\ 0 < a /\ m a = Some (CMap addrs) /\
    length addrs = length es /\
    (forall i ka va kv vv, nth_error addrs i = Some (ka, va) -> nth_error es i = Some (kv, vv) -> rp (LMem ka) k kv /\ rp (LMem va) e vv).
  Proof. intros Hr. inversion Hr; subst. do 4 eexists. repeat (split; [eassumption|]). assumption. Qed.
  Lemma inv_struct l t vs : rp l t (VStruct vs) -> exists fs, under E t = TStruct fs /\ t <> TTime /\ t <> TSyncMap /\ length vs = length fs /\
    (forall i d u v, nth_error fs i = Some (d, u) -> nth_error vs i = Some v -> rp (ladd l (h_off H fs i)) u v).
  Proof. intros Hr. inversion Hr; subst. eexists. repeat (split; [eassumption|]). assumption. Qed.
  Lemma inv_time l t g : rp l t (VTime g) -> t = TTime /\ rd m l = Some (CTime g) /\ gtime_ok g.
  Proof. intros Hr. inversion Hr; subst; auto. Qed.
  Lemma inv_sync l t es : rp l t (VSync es) -> t = TSyncMap /\ exists efs, rd m l = Some (CSync efs) /\ length efs = length es /\
    (forall i ke ve kv vv, nth_error efs i = Some (ke, ve) -> nth_error es i = Some (kv, vv) -> repr_any H m ke kv /\ repr_any H m ve vv).
  Proof. intros Hr. inversion Hr; subst. split; [reflexivity|]. eexists. repeat (split; [eassumption|]). assumption. Qed.

  Lemma is_empty_spec l t v : rp l t v -> is_empty H m t l = Some (vempty v).
  Proof.
    intros Hr. unfold is_empty. inversion Hr; subst; try match goal with U : under _ t = _ |- _ => rewrite U end; cbn [vempty].
    - rewrite H1. reflexivity.
    - rewrite H1. reflexivity.
    - rewrite H1, Bool.eqb_reflx. reflexivity.
    - rewrite (rd_string_len _ _ H1). destruct s; cbn [length]; f_equal; lia.
    - unfold isNilable in H1. unfold rd_word. rewrite H2. destruct (under (h_env H) t) eqn:Eu; try discriminate; cbn; try reflexivity.
      rewrite H3 by eauto. reflexivity.
    - unfold rd_word. rewrite H1. replace (a =? 0) with false by lia. reflexivity.
    - unfold rd_word. rewrite H1. destruct ms; reflexivity.
    - destruct (rd_header_parts _ _ _ H1) as (_ & -> & _). destruct vs; cbn [length]; f_equal; lia.
    - destruct vs; cbn [length]; reflexivity.
    - unfold rd_word. rewrite H1. replace (a =? 0) with false by lia. rewrite H3.
      destruct addrs, es; cbn in *; try lia; reflexivity.
    - reflexivity.
    - reflexivity.
    - reflexivity.
    - unfold opaque in H0. destruct (under (h_env H) t); try discriminate; reflexivity.
  Qed.

  Lemma is_nil_spec l t v : isNilable E t = true -> rp l t v -> is_nil m l = Some (vnil v).
  Proof.
    intros Hn Hr. unfold is_nil, rd_word. unfold isNilable in Hn.
    inversion Hr; subst; try match goal with U : under _ t = _ |- _ => rewrite U in Hn; try discriminate end; cbn [vnil].
    - rewrite H2. reflexivity.
    - rewrite H1. replace (a =? 0) with false by lia. reflexivity.
    - rewrite H1. destruct ms; reflexivity.
    - destruct (rd_header_parts _ _ _ H1) as (-> & _ & _). replace (a =? 0) with false by lia. reflexivity.
    - rewrite H1. replace (a =? 0) with false by lia. reflexivity.
    - cbn in Hn. discriminate.
    - cbn in Hn. discriminate.
    - unfold opaque in H0. destruct (under (h_env H) t); discriminate.
  Qed.

  Lemma vnil_nilable l t v : rp l t v -> vnil v = true -> isNilable E t = true.
  Proof. intros Hr Hv. destruct v; try discriminate. inversion Hr; subst; auto. Qed.

  Lemma repr_byte l e b : under E e = TInt KUint8 -> rp l e (VInt b) -> rd_int m l KUint8 = Some b /\ is_byte b.
  Proof.
    intros He Hr. inversion Hr; subst. rewrite He in H1. injection H1 as <-. split; auto.
  Qed.

  Lemma vbytes_rd e : under E e = TInt KUint8 -> forall vs a b, vbytes vs = Some b ->
    (forall i v, nth_error vs i = Some v -> rp (LMem (a + Z.of_nat i)) e v) ->
    rd_bytes m a (length vs) = Some b /\ bytes_ok b.
  Proof.
    intros He. induction vs as [|v vs IH]; intros a b Hb Hr; cbn [vbytes] in Hb; [injection Hb as <-; split; [reflexivity | constructor]|].
    destruct v; try discriminate. destruct (vbytes vs) as [bs|] eqn:Ev; [|discriminate]. injection Hb as <-.
    destruct (IH (a + 1) bs eq_refl) as [I1 I2].
    { intros i v Hi. replace (a + 1 + Z.of_nat i) with (a + Z.of_nat (S i)) by lia. apply Hr. exact Hi. }
    assert (R0 := Hr 0%nat _ eq_refl). replace (a + Z.of_nat 0) with a in R0 by lia.
    destruct (repr_byte _ _ _ He R0) as [R1 R2]. cbn [length rd_bytes]. rewrite R1, I1. split; [reflexivity | constructor; assumption].
  Qed.

  (** ** Promoted fields *)
  Notation epath' := (epath E (h_off H) (h_letter H) (h_udigit H)).
  Notation embeds' := (embeds E (h_letter H) (h_udigit H)).

  Lemma epath_cons t i p sq w : epath' t (i :: p) sq w ->
    exists isptr fs u sq', embeds' t i isptr u /\ struct_of E t fs /\ sq = (h_off H fs i, isptr) :: sq' /\ epath' u p sq' w.
  Proof.
    intros Hp. remember (i :: p) as q eqn:Eq. revert i p Eq. induction Hp as [|p0 sq w j isptr fs u Hp IH He Hs]; intros i p Eq; [discriminate|].
    destruct p0 as [|i0 p0]; cbn [app] in Eq; injection Eq as -> <-.
    - inversion Hp; subst; [|destruct p; discriminate]. exists isptr, fs, u, []. repeat split; auto. constructor.
    - destruct (IH i p0 eq_refl) as (isp & fs0 & u0 & sq' & A1 & A2 & -> & A4). exists isp, fs0, u0, (sq' ++ [(h_off H fs j, isptr)]).
      repeat split; auto. econstructor; eauto.
  Qed.

  Lemma repr_structural l t fs v : rp l t v -> struct_of E t fs ->
    (exists vs, v = VStruct vs /\ length vs = length fs /\
       forall i d u x, nth_error fs i = Some (d, u) -> nth_error vs i = Some x -> rp (ladd l (h_off H fs i)) u x) \/
    (exists g, v = VTime g) \/ (exists es, v = VSync es).
  Proof.
    unfold struct_of. intros Hr Hs. 
    inversion Hr; subst; try congruence; eauto.
    - exfalso. unfold isNilable in H1. rewrite Hs in H1. discriminate.
    - left. rewrite Hs in H0. injection H0 as <-. exists vs. auto.
    - exfalso. unfold opaque in H0. rewrite Hs in H0. discriminate.
  Qed.

  Lemma promoted_type p : forall t sq w i d u, epath' t p sq w -> nth_error (fields_of H w) i = Some (d, u) -> structural E w ->
    type_by_index H t (p ++ [i]) = Some u.
  Proof.
    induction p as [|j p IH]; intros t sq w i d u Hp Hi Hw.
    - inversion Hp; subst; [|destruct p; discriminate]. cbn [app type_by_index]. destruct Hw as [fs Hfs]. unfold struct_of in Hfs. rewrite Hfs, Hi. reflexivity.
    - destruct (epath_cons _ _ _ _ _ Hp) as (isptr & fs & u' & sq' & He & Hfs & -> & Hp').
      destruct He as (fs' & d' & uf & n' & opts & Hfs' & Hj & _ & _ & _ & _ & Hde & Hst & Hptr).
      unfold struct_of in Hfs, Hfs'. rewrite Hfs in Hfs'. injection Hfs' as <-.
      cbn [app type_by_index]. rewrite Hfs. unfold fields_of at 1. rewrite Hfs, Hj.
      assert (Hne : exists k q, p ++ [i] = k :: q) by (destruct p; cbn; eauto). destruct Hne as (k & q & Hq).
      assert (Hu : type_by_index H uf (p ++ [i]) = type_by_index H u' (p ++ [i])).
      { rewrite Hq. cbn [type_by_index]. destruct Hde as [-> | [Hnp ->]]; [|reflexivity].
        cbn [under]. destruct Hst as [fs2 Hs2]. unfold struct_of in Hs2. rewrite Hs2. reflexivity. }
      rewrite Hu. eapply IH; eauto.
  Qed.

  Lemma vget_deep p i v : (exists g, v = VTime g) \/ (exists es, v = VSync es) -> vget (p ++ [i]) v = None.
  Proof. intros [(g & ->) | (es & ->)]; destruct p; reflexivity. Qed.

  (** Addressable values are in memory. *)
  Definition addr (t : typ) (ca : bool) (l : loc) : Prop := is_ptr H t = false -> ca = true -> exists a, 0 < a /\ l = LMem a.

  Lemma follow_vget p : forall t sq w l v i d u, epath' t p sq w -> rp l t v -> nth_error (fields_of H w) i = Some (d, u) ->
    structural E w ->
    match vget (p ++ [i]) v with
    | None => True
    | Some None => follow m (sq ++ [(h_off H (fields_of H w) i, false)]) l = Some None
    | Some (Some x) => exists l', follow m (sq ++ [(h_off H (fields_of H w) i, false)]) l = Some (Some l') /\ rp l' u x /\
                         ((exists a, 0 < a /\ l = LMem a) -> exists a, 0 < a /\ l' = LMem a)
    end.
  Proof.
    induction p as [|j p IH]; intros t sq w l v i d u Hp Hr Hi Hw.
    - inversion Hp; subst; [|destruct p; discriminate]. cbn [app].
      destruct Hw as [fs Hfs]. assert (Hfo : fields_of H w = fs) by (unfold fields_of; unfold struct_of in Hfs; rewrite Hfs; reflexivity).
      rewrite Hfo in *.
      destruct (repr_structural _ _ _ _ Hr Hfs) as [(vs & -> & L & R) | [(g & ->) | (es & ->)]]; cbn [vget]; auto.
      destruct (nth_error vs i) as [x|] eqn:Ex; [|exact I].
      cbn [follow]. eexists. split; [reflexivity|]. split; [eapply R; eauto|].
      intros (a & Ha & ->). cbn [ladd]. eexists. split; [|reflexivity]. pose proof (ok_off _ _ OK fs i). lia.
    - destruct (epath_cons _ _ _ _ _ Hp) as (isptr & fs & u' & sq' & He & Hfs & -> & Hp').
      destruct He as (fs' & d' & uf & n' & opts & Hfs' & Hj & _ & _ & _ & _ & Hde & Hst & Hptr).
      unfold struct_of in Hfs, Hfs'. rewrite Hfs in Hfs'. injection Hfs' as <-.
      destruct (repr_structural _ _ _ _ Hr Hfs) as [(vs & -> & L & R) | C]; [|rewrite (vget_deep (j :: p)) by assumption; exact I].
      cbn [app].
      assert (Hne : exists k q, p ++ [i] = k :: q) by (destruct p; cbn; eauto). destruct Hne as (k & q & Hq).
      destruct (nth_error vs j) as [x|] eqn:Ex.
      2:{ apply nth_error_None in Ex. assert (j < length fs)%nat by (apply nth_error_Some; congruence). lia. }
      assert (Rx := R _ _ _ _ Hj Ex).
      cbn [vget follow]. rewrite Ex. rewrite Hq. cbn beta iota. rewrite <- Hq.
      destruct Hde as [-> | [Hnp ->]].
      * assert (isptr = true) as -> by (apply Hptr; exists u'; reflexivity).
        inversion Rx; subst; try (cbn in *; congruence); unfold rd_word.
        -- rewrite H2. reflexivity.
        -- rewrite H1. replace (a =? 0) with false by lia. injection H0 as ->.
           assert (G := IH _ _ _ _ _ _ _ _ Hp' H3 Hi Hw). destruct (vget (p ++ [i]) v) as [[x|]|]; auto.
           destruct G as (l' & G1 & G2 & G3). exists l'. split; [exact G1|]. split; [exact G2|]. intros _. apply G3. eauto.
      * assert (isptr = false) as ->.
        { destruct isptr; auto. destruct (proj1 Hptr eq_refl) as [e0 He0]. destruct Hst as [fs2 Hs2]. unfold struct_of in Hs2. congruence. }
        assert (G := IH _ _ _ _ _ _ _ _ Hp' Rx Hi Hw).
        assert (G2 : match vget (p ++ [i]) x with
                | None => True
                | Some None => follow m (sq' ++ [(h_off H (fields_of H w) i, false)]) (ladd l (h_off H fs j)) = Some None
                | Some (Some x0) => exists l', follow m (sq' ++ [(h_off H (fields_of H w) i, false)]) (ladd l (h_off H fs j)) = Some (Some l') /\
                    rp l' u x0 /\ ((exists a, 0 < a /\ l = LMem a) -> exists a, 0 < a /\ l' = LMem a) end).
        { destruct (vget (p ++ [i]) x) as [[x0|]|]; auto. destruct G as (l' & G1 & G2 & G3). exists l'. split; [exact G1|]. split; [exact G2|].
          intros (a & Ha & ->). apply G3. cbn [ladd]. eexists. split; [|reflexivity]. pose proof (ok_off _ _ OK fs j). lia. }
        destruct Hst as [fs2 Hs2]. destruct (repr_structural _ _ _ _ Rx Hs2) as [(vs2 & -> & _) | [(g & ->) | (es & ->)]]; exact G2.
  Qed.

  (** ** Loops *)
  Notation ex N := (exec H o m N).

  Definition runs (r : vres) (f : nat -> bytes -> res) : Prop :=
    match r with
    | VRet out err => forall dst, exists N, forall N', (N <= N')%nat -> f N' dst = Ret (dst ++ out) err
    | _ => True
    end.

  Lemma velems_runs rec e ca ins es p : forall vs i out0,
    (forall j v, nth_error vs j = Some v -> runs (rec e ca false v) (fun N => ex N ins (ladd p (Z.of_nat (i + j) * es)))) ->
    match velems rec e ca vs (i =? 0)%nat out0 with
    | VRet out err => forall dst, exists N, forall N', (N <= N')%nat ->
        exec_elems (ex N') ins es p (length vs) (Z.of_nat i) (dst ++ out0) = Ret (dst ++ out) err
    | _ => True
    end.
  Proof.
    induction vs as [|v vs IH]; intros i out0 Hr; cbn [velems].
    - intros dst. exists 0%nat. intros N' _. cbn [length exec_elems]. replace (Z.of_nat i =? 0) with (i =? 0)%nat by lia.
      destruct (i =? 0)%nat; rewrite <- app_assoc; reflexivity.
    - assert (H0 := Hr 0%nat v eq_refl). rewrite Nat.add_0_r in H0.
      assert (HS : forall j v0, nth_error vs j = Some v0 -> runs (rec e ca false v0) (fun N => ex N ins (ladd p (Z.of_nat (S i + j) * es)))).
      { intros j v0 Hj. replace (S i + j)%nat with (i + S j)%nat by lia. apply Hr. exact Hj. }
      destruct (rec e ca false v) as [b [er|]| |]; cbn [vthen]; auto.
      + intros dst. destruct (H0 ((dst ++ out0) ++ [if (i =? 0)%nat then 91 else 44])) as [N HN]. exists N. intros N' HN'.
        cbn [length exec_elems]. replace (Z.of_nat i =? 0) with (i =? 0)%nat by lia. rewrite HN by assumption. cbn [bind]. rewrite <- !app_assoc. reflexivity.
      + assert (HI := IH (S i) ((out0 ++ [if (i =? 0)%nat then 91 else 44]) ++ b) HS). cbn [Nat.eqb] in HI.
        destruct (velems rec e ca vs false _) as [out err| |]; auto.
        intros dst. destruct (H0 ((dst ++ out0) ++ [if (i =? 0)%nat then 91 else 44])) as [N HN]. destruct (HI dst) as [N2 HN2].
        exists (Nat.max N N2). intros N' HN'.
        cbn [length exec_elems]. replace (Z.of_nat i =? 0) with (i =? 0)%nat by lia. rewrite HN by lia. cbn [bind].
        replace (Z.of_nat i + 1) with (Z.of_nat (S i)) by lia.
        replace (((dst ++ out0) ++ [if (i =? 0)%nat then 91 else 44]) ++ b) with (dst ++ (out0 ++ [if (i =? 0)%nat then 91 else 44]) ++ b)
          by (rewrite <- !app_assoc; reflexivity).
        apply HN2. lia.
  Qed.

  Section Entries.
    Context {X : Type} (mk : nat -> X -> entry) (vr : X -> vres * vres).

    Lemma vunsorted_runs es : (forall x, In x es -> runs (fst (vr x)) (fun N => fst (mk N x)) /\ runs (snd (vr x)) (fun N => snd (mk N x))) ->
      forall first out0,
      match vunsorted (map vr es) first out0 with
      | VRet out err => forall dst, exists N, forall N', (N <= N')%nat ->
          exec_unsorted (map (mk N') es) first (dst ++ out0) = Ret (dst ++ out) err
      | _ => True
      end.
    Proof.
      induction es as [|x es IH]; intros He first out0; cbn [map vunsorted].
      - intros dst. exists 0%nat. reflexivity.
      - destruct (He x (or_introl eq_refl)) as [Hk Hv]. specialize (IH (fun y Hy => He y (or_intror Hy))).
        destruct (vr x) as [kr vv] eqn:Ex. cbn [fst snd] in *.
        destruct kr as [kb [ke|]| |]; cbn [vthen]; auto.
        + intros dst. destruct (Hk (dst ++ if first then out0 else out0 ++ [44])) as [N HN]. exists N. intros N' HN'.
          cbn [map exec_unsorted]. destruct (mk N' x) as [f1 f2] eqn:Em. specialize (HN N' HN'). rewrite Em in HN. cbn [fst] in HN.
          match goal with |- context [f1 ?y] => replace y with (dst ++ if first then out0 else out0 ++ [44]) by (destruct first; rewrite <- ?app_assoc; reflexivity) end.
          rewrite HN. cbn [bind]. rewrite <- !app_assoc. reflexivity.
        + destruct vv as [vb [ve|]| |]; cbn [vthen]; auto.
          * intros dst. destruct (Hk (dst ++ if first then out0 else out0 ++ [44])) as [N HN].
            destruct (Hv (dst ++ ((if first then out0 else out0 ++ [44]) ++ kb) ++ [58])) as [N2 HN2]. exists (Nat.max N N2). intros N' HN'.
            cbn [map exec_unsorted]. destruct (mk N' x) as [f1 f2] eqn:Em. specialize (HN N' ltac:(lia)). specialize (HN2 N' ltac:(lia)). rewrite Em in HN, HN2. cbn [fst snd] in *.
            match goal with |- context [f1 ?y] => replace y with (dst ++ if first then out0 else out0 ++ [44]) by (destruct first; rewrite <- ?app_assoc; reflexivity) end.
            rewrite HN. cbn [bind].
            match goal with |- context [f2 ?y] => replace y with (dst ++ ((if first then out0 else out0 ++ [44]) ++ kb) ++ [58]) by (rewrite <- !app_assoc; reflexivity) end.
            rewrite HN2. cbn [bind]. rewrite <- !app_assoc. reflexivity.
          * specialize (IH false ((((if first then out0 else out0 ++ [44]) ++ kb) ++ [58]) ++ vb)).
            destruct (vunsorted (map vr es) false _) as [out err| |]; auto.
            intros dst. destruct (Hk (dst ++ if first then out0 else out0 ++ [44])) as [N HN].
            destruct (Hv (dst ++ ((if first then out0 else out0 ++ [44]) ++ kb) ++ [58])) as [N2 HN2].
            destruct (IH dst) as [N3 HN3]. exists (Nat.max N (Nat.max N2 N3)). intros N' HN'.
            cbn [map exec_unsorted]. destruct (mk N' x) as [f1 f2] eqn:Em. specialize (HN N' ltac:(lia)). specialize (HN2 N' ltac:(lia)). rewrite Em in HN, HN2. cbn [fst snd] in *.
            match goal with |- context [f1 ?y] => replace y with (dst ++ if first then out0 else out0 ++ [44]) by (destruct first; rewrite <- ?app_assoc; reflexivity) end.
            rewrite HN. cbn [bind].
            match goal with |- context [f2 ?y] => replace y with (dst ++ ((if first then out0 else out0 ++ [44]) ++ kb) ++ [58]) by (rewrite <- !app_assoc; reflexivity) end.
            rewrite HN2. cbn [bind]. rewrite <- (HN3 N') by lia. f_equal. rewrite <- !app_assoc. reflexivity.
    Qed.

    Lemma vfill_runs es : (forall x, In x es -> runs (fst (vr x)) (fun N => fst (mk N x)) /\ runs (snd (vr x)) (fun N => snd (mk N x))) ->
      forall kvs buf,
      match vfill (map vr es) kvs with
      | VFOk kvs' => exists N, forall N', (N <= N')%nat -> fill (map (mk N') es) buf kvs = FOk kvs'
      | VFErr e => exists N, forall N', (N <= N')%nat -> fill (map (mk N') es) buf kvs = FErr e
      | _ => True
      end.
    Proof.
      induction es as [|x es IH]; intros He kvs buf; cbn [map vfill].
      - exists 0%nat. reflexivity.
      - destruct (He x (or_introl eq_refl)) as [Hk Hv]. specialize (IH (fun y Hy => He y (or_intror Hy))).
        destruct (vr x) as [kr vv] eqn:Ex. cbn [fst snd] in *.
        destruct kr as [kb [ke|]| |]; auto.
        + destruct (Hk buf) as [N HN]. exists N. intros N' HN'. specialize (HN N' HN'). cbn [map fill]. destruct (mk N' x) as [f1 f2]. cbn [fst] in HN. rewrite HN. reflexivity.
        + destruct (length kb <? 2)%nat eqn:El; auto.
          assert (Elb : (length (buf ++ kb) <? length buf + 2)%nat = false) by (rewrite app_length; lia).
          destruct vv as [vb [ve|]| |]; auto.
          * destruct (Hk buf) as [N HN]. destruct (Hv ((buf ++ kb) ++ [58])) as [N2 HN2]. exists (Nat.max N N2). intros N' HN'.
            specialize (HN N' ltac:(lia)). specialize (HN2 N' ltac:(lia)). cbn [map fill]. destruct (mk N' x) as [f1 f2]. cbn [fst snd] in *.
            rewrite HN, Elb, HN2. reflexivity.
          * assert (HI := IH (kvs ++ [(firstn (length kb - 2) (skipn 1 kb), kb ++ [58] ++ vb)]) (((buf ++ kb) ++ [58]) ++ vb)).
            assert (Step : exists N, forall N', (N <= N')%nat -> fill (map (mk N') (x :: es)) buf kvs =
                      fill (map (mk N') es) (((buf ++ kb) ++ [58]) ++ vb) (kvs ++ [(firstn (length kb - 2) (skipn 1 kb), kb ++ [58] ++ vb)])).
            { destruct (Hk buf) as [N HN]. destruct (Hv ((buf ++ kb) ++ [58])) as [N2 HN2]. exists (Nat.max N N2). intros N' HN'.
              specialize (HN N' ltac:(lia)). specialize (HN2 N' ltac:(lia)). cbn [map fill]. destruct (mk N' x) as [f1 f2]. cbn [fst snd] in *.
              rewrite HN, Elb, HN2. f_equal. f_equal. f_equal. f_equal.
              - rewrite app_length. replace (length buf + length kb - 2 - length buf)%nat with (length kb - 2)%nat by lia. f_equal.
                rewrite skipn_app. rewrite skipn_all2 by lia. cbn [app]. f_equal. lia.
              - rewrite <- !app_assoc. rewrite skipn_app, skipn_all, Nat.sub_diag. reflexivity. }
            destruct Step as [N0 HN0]. cbn [map] in HN0.
            destruct (vfill (map vr es) _) as [kvs'|e| |]; auto; destruct HI as [N1 HN1]; exists (Nat.max N0 N1); intros N' HN';
              rewrite HN0 by lia; apply HN1; lia.
    Qed.

    Lemma ventries_runs es : (forall x, In x es -> runs (fst (vr x)) (fun N => fst (mk N x)) /\ runs (snd (vr x)) (fun N => snd (mk N x))) ->
      runs (ventries H o (map vr es)) (fun N dst => exec_entries H o (map (mk N) es) (dst ++ [123])).
    Proof.
      intros He. unfold ventries, exec_entries. destruct (has (o_flags o) unsortedMap).
      - assert (G := vunsorted_runs es He true [123]). destruct (vunsorted _ _ _) as [out [err|]| |]; cbn [vthen runs]; auto.
        + intros dst. destruct (G dst) as [N HN]. exists N. intros N' HN'. rewrite HN by assumption. reflexivity.
        + intros dst. destruct (G dst) as [N HN]. exists N. intros N' HN'. rewrite HN by assumption. cbn [bind]. rewrite <- app_assoc. reflexivity.
      - unfold vsorted, exec_sorted. assert (G := vfill_runs es He [] []). destruct (vfill _ _) as [kvs|e| |]; cbn [vthen runs]; auto.
        + intros dst. destruct G as [N HN]. exists N. intros N' HN'. rewrite HN by assumption. cbn [bind]. rewrite app_assoc.
          f_equal. f_equal. clear. cbn [app].
          assert (J : forall xs first d e, join_kvs xs first (d ++ e) = d ++ join_kvs xs first e).
          { induction xs as [|[k kv] xs IH]; intros first d e; cbn [join_kvs]; [reflexivity|].
            rewrite <- IH. f_equal. destruct first; rewrite <- !app_assoc; reflexivity. }
          apply J.
        + intros dst. destruct G as [N HN]. exists N. intros N' HN'. rewrite HN by assumption. reflexivity.
    Qed.
  End Entries.

  (** ** Methods *)
  Lemma vmethod_runs k t td wl v : word_repr H m td wl v ->
    match vmethod vcall o k t td v with
    | VRet out err => forall dst, call_method H o m k t td wl dst = Ret (dst ++ out) err
    | _ => True
    end.
  Proof.
    intros Hw. unfold vmethod, call_method.
    destruct k; rewrite ?(ok_call _ _ OK _ _ _ _ _ _ _ Hw).
    - destruct (vcall MCtx td v (o_ctx o)) eqn:Ec; intros dst; rewrite (ok_call _ _ OK _ _ _ _ _ _ _ Hw), Ec; cbn [onSome]; rewrite ?app_nil_r; reflexivity.
    - destruct (vcall MApp td v None) eqn:Ec; intros dst; rewrite (ok_call _ _ OK _ _ _ _ _ _ _ Hw), Ec; cbn [onSome]; rewrite ?app_nil_r; reflexivity.
    - assert (Eq : forall dst, onSome (Some match vcall MJson td v None with inl b => inl b | inr e => inr e end)
                (fun r => encode_json_result t r dst o) = app_res dst (encode_json_result t (vcall MJson td v None) [] o)).
      { intros dst. cbn [onSome]. rewrite <- json_result_app; [destruct (vcall MJson td v None); reflexivity|]. intros b Hb. eapply (ok_bytes _ _ OK); eauto. }
      destruct (encode_json_result t (vcall MJson td v None) [] o) eqn:Er; cbn [lift]; auto.
    - assert (Eq : forall dst, onSome (Some match vcall MText td v None with inl b => inl b | inr e => inr e end)
                (fun r => encode_text_result t r dst o) = app_res dst (encode_text_result t (vcall MText td v None) [] o)).
      { intros dst. cbn [onSome]. rewrite <- text_result_app. destruct (vcall MText td v None); reflexivity. }
      destruct (encode_text_result t (vcall MText td v None) [] o) eqn:Er; cbn [lift]; auto.
  Qed.

  (** ** Structs *)
  Lemma type_by_index_ok p : forall t u, tok t -> type_by_index H t p = Some u -> tok u.
  Proof.
    induction p as [|i p IH]; intros t u Ht; cbn [type_by_index]; [intros [= <-]; exact Ht|].
    assert (Ht' : tok match under E t with TPtr e => e | _ => t end).
    { assert (G := under_ok H (ok_wf _ _ OK) t Ht). destruct (under E t); auto. }
    destruct (nth_error (fields_of H _) i) as [[d u']|] eqn:En; [|discriminate]. apply IH.
    assert (F := fields_of_ok H (ok_wf _ _ OK) _ Ht'). rewrite Forall_forall in F. apply nth_error_In in En. apply (F _ En).
  Qed.

  Lemma key_text_last name : exists k, key_text o name = k ++ [58] /\ (2 <= length k)%nat.
  Proof.
    unfold key_text, key_raw, key_esc. destruct (has (o_flags o) noHTMLEscaping); eexists; split.
    - rewrite app_comm_cons. change [34; 58] with ([34] ++ [58]). rewrite app_assoc. reflexivity.
    - rewrite app_length. cbn [length]. lia.
    - rewrite app_comm_cons. change [34; 58] with ([34] ++ [58]). rewrite app_assoc. reflexivity.
    - rewrite app_length. cbn [length]. lia.
  Qed.

  Lemma nth_skipn (L : bytes) n i : nth i (skipn n L) 0 = nth (n + i) L 0.
  Proof. revert L. induction n as [|n IH]; intros [|x L]; cbn [skipn nth Nat.add]; auto. destruct i; reflexivity. Qed.

  Lemma ends_null_key pre name b : ends_null (pre ++ key_text o name ++ b) = tail_null b.
  Proof.
    destruct (key_text_last name) as (k & -> & Lk). unfold ends_null, tail_null. set (L := pre ++ (k ++ [58]) ++ b).
    assert (LL : length L = (length pre + length k + 1 + length b)%nat) by (unfold L; rewrite !app_length; cbn [length]; lia).
    destruct (4 <=? length b)%nat eqn:Eb; cbn [andb].
    - replace (4 <? length L)%nat with true by lia. cbn [andb]. f_equal. unfold L at 2. rewrite app_assoc. rewrite skipn_app.
      rewrite skipn_all2 by (rewrite LL, !app_length; cbn [length]; lia). cbn [app]. f_equal. rewrite LL, !app_length. cbn [length]. lia.
    - destruct (4 <? length L)%nat eqn:El; cbn [andb]; [|reflexivity].
      destruct (bytes_eqb (skipn (length L - 4) L) l_null) eqn:Eq; [|reflexivity]. exfalso. apply bytes_eqb_eq in Eq.
      assert (N : nth (3 - length b) (skipn (length L - 4) L) 0 = 58).
      { assert (S : nth (length L - 4 + (3 - length b)) L 0 = 58).
        { replace (length L - 4 + (3 - length b))%nat with (length (pre ++ k) + 0)%nat by (rewrite app_length; lia).
          unfold L. rewrite <- app_assoc, app_assoc. rewrite app_nth2_plus. reflexivity. }
        rewrite <- S. apply nth_skipn. }
      rewrite Eq in N. destruct b as [|b0 [|b1 [|b2 [|b3 b]]]]; cbn in N; lia.
  Qed.

  Lemma field_candidate k t fs x : tok t -> structFields H k t = Some fs -> In x fs ->
    exists p sq w i d u, f_index x = p ++ [i] /\ epath' t p sq w /\ structural E w /\ nth_error (fields_of H w) i = Some (d, u) /\
      (right_seq H t x = true -> f_seq x = sq ++ [(h_off H (fields_of H w) i, false)]).
  Proof.
    intros Ht Hs Hx. destruct (structFields_data H (ok_wf _ _ OK) t Ht k fs x Hs Hx) as (p & sq & w & i & v & opts & A1 & A2 & A3 & _).
    destruct A3 as (fs' & d & n & B1 & B2 & _). exists p, sq, w, i, d, v.
    assert (fields_of H w = fs') as Hf by (unfold fields_of; unfold struct_of in B1; rewrite B1; reflexivity). subst fs'.
    split; [exact A1|]. split; [exact A2|]. split; [exists (fields_of H w); exact B1|]. split; [exact B2|].
    intros Hr. apply right_seq_iff in Hr. rewrite A1, (path_seq_field H (ok_wf _ _ OK) t Ht _ _ _ _ _ A2 B2) in Hr. congruence.
  Qed.

  Lemma vfields_runs rec k ks t ca l v all :
    tok t -> structFields H ks t = Some all -> rp l t v -> structural E t ->
    (ca = true -> exists a, 0 < a /\ l = LMem a) ->
    (forall k' t' q' x l' i', tok t' -> rp l' t' x -> (ca = true -> exists a, 0 < a /\ l' = LMem a) -> compile H k' t' ca q' = Some i' ->
        runs (rec t' ca q' x) (fun N => ex N i' l')) ->
    forall fs ss first out0, incl fs all -> build_fields H k t ca fs = Some ss ->
    match vfields H o rec t ca v fs first out0 with
    | VRet out err => forall dst, exists N, forall N', (N <= N')%nat ->
        exec_fields H o m (ex N') ss l first (dst ++ out0) = Ret (dst ++ out) err
    | _ => True
    end.
  Proof.
    intros Ht Hall Hr Hst Ha Hrec. induction fs as [|f fs IH]; intros ss first out0 Hin Hb; cbn [build_fields] in Hb.
    - injection Hb as <-. cbn [vfields]. intros dst. exists 0%nat. intros N' _. cbn [exec_fields]. destruct first; rewrite <- app_assoc; reflexivity.
    - destruct (build_field H k t ca f) as [s|] eqn:Ef; [|discriminate]. destruct (build_fields H k t ca fs) as [ss'|] eqn:Ess; [|discriminate].
      injection Hb as <-. assert (Hin' : incl fs all) by (intros y Hy; apply Hin; right; exact Hy).
      unfold build_field in Ef. destruct (type_by_index H t (f_index f)) as [ft|] eqn:Et; [|discriminate].
      set (et := match under E ft with TPtr e => e | _ => ft end) in *.
      destruct (compile H k ft ca (f_quoted f && isBasicType E et)) as [ins|] eqn:Ec; [|discriminate]. injection Ef as <-.
      cbn [vfields exec_fields sf_name sf_seq sf_omitNil sf_omitNull sf_empty sf_instr].
      destruct (isDeniedField o (f_name f)); [apply IH; auto|].
      destruct (negb (right_seq H t f)) eqn:E4; [exact I|].
      destruct (field_candidate ks t all f Ht Hall (Hin f (or_introl eq_refl))) as (p & sq & w & i & d & u & Ei & Hp & Hw & Hi & Hsq).
      specialize (Hsq ltac:(apply negb_false_iff; exact E4)).
      assert (Hu := promoted_type _ _ _ _ _ _ _ Hp Hi Hw). rewrite <- Ei, Et in Hu. injection Hu as <-.
      assert (Hf := follow_vget _ _ _ _ _ _ _ _ _ Hp Hr Hi Hw). rewrite <- Ei, <- Hsq in Hf. rewrite Et. fold et.
      destruct (vget (f_index f) v) as [[x|]|]; [| |exact I].
      2:{ rewrite Hf. cbn [onSome]. apply IH; auto. }
      destruct Hf as (l' & Hf & Hrx & Hal). rewrite Hf. cbn [onSome].
      assert (Hnil : (if f_omitNil f && isNilable E ft then is_nil m l' else Some false) = Some (f_omitNil f && vnil x)).
      { destruct (f_omitNil f); cbn [andb]; [|reflexivity]. destruct (isNilable E ft) eqn:En; [eapply is_nil_spec; eauto|].
        destruct (vnil x) eqn:Ev; [|reflexivity]. rewrite (vnil_nilable _ _ _ Hrx Ev) in En. discriminate. }
      rewrite Hnil. cbn [onSome]. destruct (f_omitNil f && vnil x); [apply IH; auto|].
      assert (Hemp : match (if f_omitEmpty f then Some ft else None) with Some t0 => is_empty H m t0 l' | None => Some false end =
                Some (f_omitEmpty f && vempty x)).
      { destruct (f_omitEmpty f); cbn [andb]; [|reflexivity]. eapply is_empty_spec; eauto. }
      rewrite Hemp. cbn [onSome]. destruct (f_omitEmpty f && vempty x); [apply IH; auto|].
      assert (Htf : tok ft) by (eapply type_by_index_ok; eauto).
      assert (R := Hrec k ft (f_quoted f && isBasicType E et) x l' ins Htf Hrx (fun C => Hal (Ha C)) Ec).
      change (if has (o_flags o) noHTMLEscaping then key_raw (f_name f) else key_esc (f_name f)) with (key_text o (f_name f)).
      set (sep := if first then [123] else [44]).
      replace [if first then 123 else 44] with sep by (unfold sep; destruct first; reflexivity).
      destruct (rec ft ca (f_quoted f && isBasicType E et) x) as [b [er|]| |]; auto.
      + intros dst. destruct (R ((dst ++ out0) ++ sep ++ key_text o (f_name f))) as [N HN]. exists N. intros N' HN'.
        rewrite HN by assumption. cbn [bind]. rewrite <- !app_assoc. reflexivity.
      + assert (Hnext := IH ss' false (if f_omitNil f && (h_impl H ft MJson || h_impl H (TPtr ft) MJson) && tail_null b
                   then (if first then out0 ++ sep else out0) else out0 ++ sep ++ key_text o (f_name f) ++ b) Hin' eq_refl).
        destruct (vfields H o rec t ca v fs false _) as [out err| |]; auto.
        intros dst. destruct (R ((dst ++ out0) ++ sep ++ key_text o (f_name f))) as [N HN]. destruct (Hnext dst) as [N2 HN2].
        exists (Nat.max N N2). intros N' HN'. rewrite HN by lia. cbn [bind].
        rewrite <- (HN2 N') by lia. f_equal.
        replace (((dst ++ out0) ++ sep ++ key_text o (f_name f)) ++ b) with ((dst ++ out0 ++ sep) ++ key_text o (f_name f) ++ b) by (rewrite <- !app_assoc; reflexivity).
        rewrite ends_null_key.
        destruct (f_omitNil f && (h_impl H ft MJson || h_impl H (TPtr ft) MJson)); cbn [andb]; [|rewrite <- !app_assoc; reflexivity].
        destruct (tail_null b); [|rewrite <- !app_assoc; reflexivity].
        unfold sep. destruct first.
        * replace (S (length (dst ++ out0))) with (length (dst ++ out0 ++ [123%Z]) + 0)%nat by (rewrite !app_length; cbn [length]; lia).
          rewrite firstn_app_2. cbn [firstn]. rewrite app_nil_r. reflexivity.
        * replace (length (dst ++ out0)) with (length (dst ++ out0) + 0)%nat by lia.
          replace ((dst ++ out0 ++ [44]) ++ key_text o (f_name f) ++ b) with ((dst ++ out0) ++ [44] ++ key_text o (f_name f) ++ b) by (rewrite <- !app_assoc; reflexivity).
          rewrite firstn_app_2. cbn [firstn]. rewrite app_nil_r. reflexivity.
  Qed.

  (** ** The theorem *)
  Lemma marshaler_pick t ca : marshaler_instr H t ca = option_map (fun '(k, hp) => IMarshaler k t hp) (method_of H t ca).
  Proof.
    unfold marshaler_instr, method_of. cbn [pick].
    repeat match goal with |- context [if ?b then _ else _] => destruct b; [reflexivity|] end. reflexivity.
  Qed.

  Lemma native_go t : native t = match go_type_instr t with Some _ => true | None => false end.
  Proof. destruct t; reflexivity. Qed.

  Definition good (n : nat) : Prop := forall k t ca q v l i, tok t -> rp l t v -> addr t ca l -> compile H k t ca q = Some i ->
    runs (venc H vcall o n t ca q v) (fun N => ex N i l).

  Lemma runs_const r f : (forall dst N, f (S N) dst = match r with VRet out err => Ret (dst ++ out) err | _ => f (S N) dst end) -> runs r f.
  Proof. intros Hf. destruct r; cbn [runs]; auto. intros dst. exists 1%nat. intros [|N'] HN; [lia|]. apply Hf. Qed.

  Lemma runs_lift r f : (forall dst N, f (S N) dst = app_res dst r) -> runs (lift r) f.
  Proof. intros Hf. apply runs_const. intros dst N. destruct r; cbn [lift]; auto. rewrite Hf. reflexivity. Qed.

  Lemma runs_ret out err f : (forall dst N, f (S N) dst = Ret (dst ++ out) err) -> runs (VRet out err) f.
  Proof. intros Hf. apply runs_const. exact Hf. Qed.

  Lemma runs_step r f g : runs r f -> (forall dst N, g (S N) dst = f N dst) -> runs r g.
  Proof.
    intros Hr Hg. destruct r; cbn [runs] in *; auto. intros dst. destruct (Hr dst) as [N HN]. exists (S N). intros [|N'] HN'; [lia|].
    rewrite Hg. apply HN. lia.
  Qed.

  Lemma runs_quoted r i l : runs r (fun N => ex N i l) -> runs (vquote r) (fun N => ex N (IQuoted i) l).
  Proof.
    intros Hr. destruct r as [b [e|]| |]; cbn [vquote runs] in *; auto; intros dst; destruct (Hr (dst ++ [34])) as [N HN]; exists (S N);
      intros [|N'] HN'; try lia; cbn [exec]; rewrite HN by lia; cbn [bind]; rewrite <- !app_assoc; reflexivity.
  Qed.

  Lemma runs_quote_if q r i l : runs r (fun N => ex N i l) -> runs (vquote_if q r) (fun N => ex N (quote_if q i) l).
  Proof. destruct q; [apply runs_quoted | auto]. Qed.

  Lemma vany_runs n n' t w v : good n -> tok t -> is_iface H t = false -> (direct H t -> rp (LTmp w 0) t v) -> (~ direct H t -> rp (LMem w) t v) ->
    runs (vany H (venc H vcall o n) n' t v) (fun N => append_json H o m N (t, w)).
  Proof.
    intros Hg Ht Hif Hd Hnd. unfold vany. destruct (is_direct H n' t) as [d|] eqn:Ed; [|exact I]. destruct (isInlined H n' t) as [b|] eqn:Eb; [|exact I].
    destruct (Bool.eqb d b || opaque H t) eqn:Eok; [|exact I].
    destruct (ok_compile _ _ OK t (is_ptr H t) false Ht) as (k & i & Hc).
    assert (Hs := is_direct_spec _ _ _ Ed).
    assert (Hl : rp (if b then LTmp w 0 else LMem w) t v).
    { destruct (Bool.eqb d b) eqn:Edb.
      - apply Bool.eqb_prop in Edb. subst b. destruct d; [apply Hd, Hs; reflexivity | apply Hnd; intros C; apply Hs in C; discriminate].
      - cbn [orb] in Eok. assert (Hx : exists l0, rp l0 t v).
        { destruct d; [exists (LTmp w 0); apply Hd, Hs; reflexivity | exists (LMem w); apply Hnd; intros C; apply Hs in C; discriminate]. }
        destruct Hx as [l0 Hx]. unfold opaque in Eok.
        inversion Hx; subst; try (match goal with U : under _ t = _ |- _ => rewrite U in Eok; discriminate end); try (cbn in Eok; discriminate).
        + exfalso. unfold isNilable in H1. destruct (under E t); discriminate.
        + apply R_opaque. exact H0. }
    assert (Hrun := Hg k t (is_ptr H t) false v _ i Ht Hl (fun A B => ltac:(congruence)) Hc).
    destruct (venc H vcall o n t (is_ptr H t) false v) as [out err| |]; cbn [runs] in *; auto.
    intros dst. destruct (Hrun dst) as [N HN]. exists (S (Nat.max N (Nat.max k n'))). intros N' HN'. unfold append_json, cached_instr. cbn [fst snd].
    rewrite (compile_mono H k N' _ _ _ _ Hc) by lia. rewrite (isInlined_mono H n' N' _ _ Eb) by lia.
    destruct b; [|apply HN; lia]. destruct N' as [|N']; [lia|]. cbn [exec]. apply HN. lia.
  Qed.

  Lemma direct_dec t : tok t -> direct H t \/ ~ direct H t.
  Proof.
    intros Ht. destruct (ok_direct _ _ OK t Ht) as (k & b & Hd). apply is_direct_spec in Hd.
    destruct b; [left; apply Hd; reflexivity | right; intros C; apply Hd in C; discriminate].
  Qed.

  Lemma method_of_ptr t ca k : method_of H t ca = Some (k, true) -> is_ptr H t = false /\ ca = true.
  Proof.
    unfold method_of. cbn [pick].
    repeat match goal with
    | |- (if h_impl H t _ then _ else _) = _ -> _ => destruct (h_impl H t _); [discriminate|]
    | |- (if ?b && ?c && ?d then _ else _) = _ -> _ => destruct b eqn:Eb, c eqn:Ec, d; cbn [andb]; try (intros _; split; [destruct (is_ptr H t); [discriminate|reflexivity] | reflexivity])
    end; discriminate.
  Qed.

  Lemma word_any td w v : tok td -> (direct H td -> rp (LTmp w 0) td v) -> (~ direct H td -> rp (LMem w) td v) -> word_repr H m td (LMem w) v.
  Proof. intros Ht Hd Hn. destruct (direct_dec td Ht) as [D|D]; [right; split; [exact D|]; exists w; auto | left; auto]. Qed.

  Lemma marshaler_runs n k t hp ca v l : tok t -> rp l t v -> addr t ca l -> method_of H t ca = Some (k, hp) ->
    runs (vmarshaler H vcall o n k t hp v) (fun N => ex N (IMarshaler k t hp) l).
  Proof.
    intros Ht Hr Ha Hm.
    assert (Via : forall r, match r with VRet out err => forall dst, exec_marshaler H o m k t hp l dst = Ret (dst ++ out) err | _ => True end ->
      runs r (fun N => ex N (IMarshaler k t hp) l)).
    { intros r Hx. destruct r; cbn [runs]; auto. intros dst. exists 1%nat. intros [|N'] HN; [lia|]. cbn [exec]. apply Hx. }
    apply Via. clear Via. unfold vmarshaler, exec_marshaler. destruct hp.
    - destruct (method_of_ptr _ _ _ Hm) as [P C]. destruct (Ha P C) as (a & A1 & ->).
      assert (W : word_repr H m (TPtr t) (LMem a) (VPtr v)).
      { right. split; [eapply d_ptr; reflexivity|]. exists a. split; [reflexivity|]. eapply R_ptr; [reflexivity | reflexivity | exact A1 | exact Hr]. }
      assert (G := vmethod_runs k (TPtr t) (TPtr t) _ _ W). destruct (vmethod _ _ _ _ _ _); auto. intros dst. destruct a; try lia. apply G.
    - destruct (under E t) eqn:Eu.
      all: try (destruct (is_direct H n t) as [[|]|] eqn:Ed; auto;
        apply is_direct_spec in Ed; assert (ND : ~ direct H t) by (intros C; apply Ed in C; discriminate);
        exact (vmethod_runs k t t l v (or_introl (conj ND Hr)))).
      + destruct v; auto; inversion Hr; subst; try congruence.
        * destruct methods as [ms|]; unfold rd_iface, rd_eface;
          match goal with R : rd m l = Some (CPtr 0) |- _ => rewrite R end; intros dst; reflexivity.
        * match goal with U : under _ t = TIface ?x |- _ => rewrite Eu in U; injection U as <- end.
          assert (W : word_repr H m t0 (LMem w) v) by (apply word_any; auto).
          assert (G := vmethod_runs k t t0 _ _ W).
          destruct methods as [mm|]; unfold rd_iface, rd_eface;
          match goal with R : rd m l = Some _, R2 : rd m (ladd l 8) = Some _ |- _ => rewrite R, R2 end; exact G.
      + destruct v; auto; inversion Hr; subst; try congruence; unfold rd_word; match goal with R : rd m l = Some (CPtr _) |- _ => rewrite R end.
        * intros dst. reflexivity.
        * match goal with A : 0 < a |- _ => replace (a =? 0) with false by lia end.
          assert (W : word_repr H m t (LMem a) (VPtr v)).
          { right. split; [eapply d_ptr; eauto|]. exists a. split; [reflexivity|]. eapply R_ptr; [eassumption | reflexivity | assumption | assumption]. }
          exact (vmethod_runs k t t _ _ W).
  Qed.

  Lemma byte_elem_under e : byte_elem H e = true -> under E e = TInt KUint8.
  Proof. unfold byte_elem. destruct (under E e) as [ |k| | | | | | | | | | | | | | | | | | ]; try discriminate. destruct k; try discriminate. reflexivity. Qed.

  Lemma byte_slice_runs l t e vs b : under E t = TSlice e -> under E e = TInt KUint8 -> rp l t (VSlice vs) -> vbytes vs = Some b ->
    rd_byte_slice m l = Some (Some b) /\ bytes_ok b.
  Proof.
    intros Hu He Hr Hb. destruct (inv_slice _ _ _ Hr) as (e0 & a & Q1 & Q2 & Q3 & Q4). rewrite Hu in Q1. injection Q1 as <-. unfold rd_byte_slice. rewrite Q2.
    replace (a =? 0) with false by lia. rewrite Nat2Z.id. rewrite (ok_byte _ _ OK e He) in Q4.
    destruct (vbytes_rd e He vs a b Hb) as [R1 R2]. { intros i v Hi. specialize (Q4 i v Hi). rewrite Z.mul_1_r in Q4. exact Q4. }
    rewrite R1. auto.
  Qed.

  Lemma nil_slice_runs l t e : under E t = TSlice e -> rp l t VNil -> rd_byte_slice m l = Some None /\ rd_header m l = Some (0, 0).
  Proof.
    intros Hu Hr. destruct (inv_nil _ _ Hr) as (_ & _ & Q1 & Q2). unfold rd_byte_slice, rd_header. rewrite Q1. rewrite Q2 by eauto. split; reflexivity.
  Qed.

  Lemma sync_runs n n' e v : good n -> repr_any H m e v ->
    runs (vsync_key H o (venc H vcall o n) n' v) (fun N dst => sync_key H o m (fun t w d => append_json H o m N (t, w) d) e dst) /\
    runs (vsync_val H (venc H vcall o n) n' v) (fun N dst => sync_val (fun t w d => append_json H o m N (t, w) d) e dst).
  Proof.
    intros Hg Hr. destruct Hr as [|td w v Ht Hif Hd Hn].
    - split; cbn [vsync_key vsync_val runs]; auto. intros dst. exists 0%nat. intros N' _. cbn [sync_key]. rewrite app_nil_r. reflexivity.
    - assert (A := vany_runs n n' td w v Hg Ht Hif Hd Hn). split; [|exact A]. unfold vsync_key, sync_key.
      destruct (isString E td) eqn:Es; cbn [negb andb].
      + destruct v; cbn [runs]; auto. intros dst. exists 0%nat. intros N' _. unfold isString in Es.
        assert (ND : ~ direct H td) by (intros C; inversion C; subst; match goal with U : under _ td = _ |- _ => rewrite U in Es; discriminate end).
        specialize (Hn ND). destruct (inv_str _ _ _ Hn) as (_ & Q1 & Q2). rewrite Q1. cbn [onSome bind]. rewrite encode_string_app by exact Q2. reflexivity.
      + destruct (negb (isInteger E td) && negb (h_impl H td MText)).
        * intros dst. exists 0%nat. intros N' _. rewrite app_nil_r. reflexivity.
        * destruct (h_impl H td MText); cbn [negb vquote_if].
          -- destruct (vany _ _ _ _ _) as [b [er|]| |]; cbn [runs] in *; auto; intros dst; destruct (A dst) as [N HN]; exists N; intros N' HN'; rewrite HN by assumption; reflexivity.
          -- destruct (vany _ _ _ _ _) as [b [er|]| |]; cbn [runs vquote] in *; auto; intros dst; destruct (A (dst ++ [34])) as [N HN]; exists N;
               intros N' HN'; rewrite HN by assumption; cbn [bind]; rewrite <- !app_assoc; reflexivity.
  Qed.

  Lemma combine_fst_map {A B C} (f : A -> C) (xs : list A) : forall ys : list B, length xs = length ys -> map (fun p => f (fst p)) (combine xs ys) = map f xs.
  Proof. induction xs as [|x xs IH]; intros [|y ys] Hl; cbn in *; try lia; auto. f_equal. apply IH. lia. Qed.
  Lemma combine_snd_map {A B C} (f : B -> C) (xs : list A) : forall ys : list B, length xs = length ys -> map (fun p => f (snd p)) (combine xs ys) = map f ys.
  Proof. induction xs as [|x xs IH]; intros [|y ys] Hl; cbn in *; try lia; auto. f_equal. apply IH. lia. Qed.
  Lemma combine_in_nth {A B} (xs : list A) : forall (ys : list B) x y, In (x, y) (combine xs ys) -> exists i, nth_error xs i = Some x /\ nth_error ys i = Some y.
  Proof.
    induction xs as [|x0 xs IH]; intros [|y0 ys] x y Hi; cbn in Hi; try tauto. destruct Hi as [[= -> ->]|Hi]; [exists 0%nat; auto|].
    destruct (IH _ _ _ Hi) as (i & A1 & A2). exists (S i). auto.
  Qed.

  Lemma native_runs n t v l i : good n -> rp l t v -> go_type_instr t = Some i ->
    runs (vnative H o (venc H vcall o n) n t v) (fun N => ex N i l).
  Proof.
    intros Hg Hr Hi. destruct t; try discriminate; injection Hi as <-; cbn [vnative].
    - destruct v; try exact I. destruct (inv_time _ _ _ Hr) as (_ & Q & _). apply runs_lift. intros dst N. cbn [exec]. rewrite Q. apply encode_time_app.
    - destruct v; try exact I. destruct (inv_int _ _ _ Hr) as (k & Q1 & Q2 & _). cbn in Q1. injection Q1 as <-. apply runs_lift. intros dst N. cbn [exec]. rewrite Q2. apply encode_duration_app.
    - destruct v; try exact I. destruct (inv_str _ _ _ Hr) as (_ & Q2 & _). apply runs_lift. intros dst N. cbn [exec]. rewrite Q2. apply encode_number_app.
    - destruct v; try exact I.
      + destruct (nil_slice_runs l TRawMessage _ eq_refl Hr) as [R _]. apply runs_lift. intros dst N. cbn [exec]. rewrite R. apply encode_raw_app. discriminate.
      + destruct (vbytes vs) as [b|] eqn:Eb; [|exact I].
        destruct (byte_slice_runs l TRawMessage _ vs b eq_refl eq_refl Hr Eb) as [R Rb].
        apply runs_lift. intros dst N. cbn [exec]. rewrite R. apply encode_raw_app. intros ? [= <-]. exact Rb.
    - destruct v; try exact I. destruct (inv_sync _ _ _ Hr) as (_ & efs & Q1 & Q2 & Q3).
      eapply runs_step with (f := fun N dst => exec_entries H o (map (fun kv => (sync_key H o m (fun t w d => append_json H o m N (t, w) d) (fst kv),
          sync_val (fun t w d => append_json H o m N (t, w) d) (snd kv))) efs) (dst ++ [123])).
      2:{ intros dst N. cbn [exec]. rewrite Q1. reflexivity. }
      set (vr := fun x : (eface * eface) * (val * val) => (vsync_key H o (venc H vcall o n) n (fst (snd x)), vsync_val H (venc H vcall o n) n (snd (snd x)))).
      set (mk := fun N (x : (eface * eface) * (val * val)) => (sync_key H o m (fun t w d => append_json H o m N (t, w) d) (fst (fst x)),
          sync_val (fun t w d => append_json H o m N (t, w) d) (snd (fst x)))).
      assert (G : runs (ventries H o (map vr (combine efs es))) (fun N dst => exec_entries H o (map (mk N) (combine efs es)) (dst ++ [123]))).
      { apply ventries_runs. intros [[ke ve] [kv vv]] Hx. destruct (combine_in_nth _ _ _ _ Hx) as (j & J1 & J2).
        destruct (Q3 _ _ _ _ _ J1 J2) as [W1 W2]. cbn [vr mk fst snd].
        split; [apply (sync_runs n n ke kv Hg W1) | apply (sync_runs n n ve vv Hg W2)]. }
      unfold vr in G. rewrite (combine_snd_map (fun kv => (vsync_key H o (venc H vcall o n) n (fst kv), vsync_val H (venc H vcall o n) n (snd kv)))) in G by assumption.
      destruct (ventries H o _) as [out err| |]; cbn [runs] in *; auto.
      intros dst. destruct (G dst) as [N HN]. exists N. intros N' HN'. rewrite <- (HN N' HN'). f_equal. unfold mk.
      rewrite (combine_fst_map (fun kv => (sync_key H o m (fun t w d => append_json H o m N' (t, w) d) (fst kv),
          sync_val (fun t w d => append_json H o m N' (t, w) d) (snd kv)))) by assumption. reflexivity.
  Qed.

  Lemma build_fields_total t ca fs : (forall f, In f fs -> exists u, type_by_index H t (f_index f) = Some u /\ tok u) ->
    exists k ss, build_fields H k t ca fs = Some ss.
  Proof.
    induction fs as [|f fs IH]; intros Hf; [exists 0%nat, []; reflexivity|].
    destruct (IH (fun x Hx => Hf x (or_intror Hx))) as (k1 & ss & H1). destruct (Hf f (or_introl eq_refl)) as (u & Hu & Tu).
    destruct (ok_compile _ _ OK u ca (f_quoted f && isBasicType E match under E u with TPtr e => e | _ => u end) Tu) as (k2 & i & H2).
    exists (Nat.max k1 k2). cbn [build_fields]. unfold build_field. rewrite Hu. rewrite (compile_mono H k2 _ _ _ _ _ H2) by lia.
    rewrite (build_fields_mono H k1 _ _ _ _ _ H1) by lia. eauto.
  Qed.

  Lemma good_all n : good n.
  Proof.
    induction n as [|n IH]; intros k t ca q v l i Ht Hr Ha Hc; [exact I|].
    destruct k as [|k]; [discriminate|]. cbn [compile] in Hc. cbn [venc]. rewrite native_go.
    destruct (go_type_instr t) as [gi|] eqn:Eg. { injection Hc as <-. apply native_runs; auto. }
    rewrite marshaler_pick in Hc. destruct (method_of H t ca) as [[mk hp]|] eqn:Em.
    { injection Hc as <-. eapply marshaler_runs; eauto. }
    cbn [option_map] in Hc. unfold basic_instr in Hc. unfold vkind.
    destruct (under E t) as [ |ik|fb| | | | | |ms|e|e|an e|kt et|fs|nn| | | | | ] eqn:Eu.
    - (* bool *)
      injection Hc as <-. destruct v; try exact I. apply runs_quote_if. destruct (inv_bool _ _ _ Hr) as [_ Q].
      apply runs_ret. intros dst N. cbn [exec]. rewrite Q. rewrite encode_bool_app. reflexivity.
    - (* int *)
      injection Hc as <-. destruct v; try exact I. apply runs_quote_if. destruct (inv_int _ _ _ Hr) as (k' & Q1 & Q2 & _). rewrite Eu in Q1. injection Q1 as <-.
      apply runs_ret. intros dst N. cbn [exec]. rewrite Q2. cbn [onSome]. rewrite encode_int_app. reflexivity.
    - (* float *)
      injection Hc as <-. destruct v; try exact I. apply runs_quote_if. destruct (inv_float _ _ _ Hr) as (k' & Q1 & Q2). rewrite Eu in Q1. injection Q1 as <-.
      apply runs_lift. intros dst N. cbn [exec]. rewrite Q2. rewrite Bool.eqb_reflx. apply appendFloat_app.
    - (* string *)
      injection Hc as <-. destruct v; try exact I. destruct (inv_str _ _ _ Hr) as (_ & Q1 & Q2). destruct q; apply runs_ret; intros dst N; cbn [exec]; rewrite Q1; cbn [onSome].
      + rewrite encode_quoted_app by assumption. reflexivity.
      + rewrite encode_string_app by exact Q2. reflexivity.
    - injection Hc as <-. apply runs_ret. intros dst N. rewrite app_nil_r. reflexivity.
    - injection Hc as <-. apply runs_ret. intros dst N. rewrite app_nil_r. reflexivity.
    - injection Hc as <-. apply runs_ret. intros dst N. rewrite app_nil_r. reflexivity.
    - injection Hc as <-. apply runs_ret. intros dst N. rewrite app_nil_r. reflexivity.
    - (* interface *)
      injection Hc as <-. destruct v; try (destruct ms; exact I).
      + destruct (inv_nil _ _ Hr) as (_ & _ & Q & _). apply runs_ret. intros dst N. cbn [exec]. unfold rd_eface. rewrite Q. reflexivity.
      + destruct ms; [exact I|]. destruct (inv_iface _ _ _ _ Hr) as (ms & w & Q1 & Q2 & Q3 & Q4 & Q5 & Q6 & Q7). rewrite Eu in Q1. injection Q1 as <-.
        eapply runs_step; [apply (vany_runs n n t0 w v); auto|]. intros dst N. cbn [exec]. unfold rd_eface. rewrite Q2, Q3. reflexivity.
    - (* pointer *)
      destruct (compile H k e true q) as [i'|] eqn:Ec; [|discriminate]. injection Hc as <-.
      destruct v; try exact I.
      + destruct (inv_nil _ _ Hr) as (_ & _ & Q & _). apply runs_ret. intros dst N. cbn [exec]. unfold rd_word. rewrite Q. reflexivity.
      + destruct (inv_ptr _ _ _ Hr) as (e0 & a & Q1 & Q2 & Q3 & Q4). rewrite Eu in Q1. injection Q1 as <-.
        assert (Te : tok e). { assert (G := under_ok H (ok_wf _ _ OK) t Ht). rewrite Eu in G. exact G. }
        eapply runs_step; [eapply (IH k e true q v (LMem a) i'); eauto|].
        { intros _ _. exists a. auto. }
        intros dst N. cbn [exec]. unfold rd_word. rewrite Q2. replace (a =? 0) with false by lia. reflexivity.
    - (* slice *)
      assert (Te : tok e). { assert (G := under_ok H (ok_wf _ _ OK) t Ht). rewrite Eu in G. exact G. }
      destruct (byte_elem H e) eqn:Eb.
      + injection Hc as <-. assert (Ue := byte_elem_under e Eb). destruct v; try exact I.
        * destruct (nil_slice_runs l t e Eu Hr) as [R _]. apply runs_ret. intros dst N. cbn [exec]. rewrite R. reflexivity.
        * destruct (vbytes vs) as [b|] eqn:Evb; [|exact I]. destruct (byte_slice_runs l t e vs b Eu Ue Hr Evb) as [R Rb].
          apply runs_ret. intros dst N. cbn [exec]. rewrite R. cbn [onSome]. rewrite byte_slice_app by (intros ? [= <-]; exact Rb). reflexivity.
      + destruct (compile H k e true false) as [i'|] eqn:Ec; [|discriminate]. injection Hc as <-. destruct v; try exact I.
        * destruct (nil_slice_runs l t e Eu Hr) as [_ R]. apply runs_ret. intros dst N. cbn [exec]. rewrite R. reflexivity.
        * destruct (inv_slice _ _ _ Hr) as (e0 & a & Q1 & Q2 & Q3 & Q4). rewrite Eu in Q1. injection Q1 as <-.
          assert (G := velems_runs (venc H vcall o n) e true i' (h_size H e) (LMem a) vs 0 []).
          assert (Gp : forall j v, nth_error vs j = Some v -> runs (venc H vcall o n e true false v) (fun N => ex N i' (ladd (LMem a) (Z.of_nat (0 + j) * h_size H e)))).
          { intros j v Hj. apply (IH k e true false v); [exact Te | apply Q4; exact Hj | | exact Ec]. intros _ _. eexists. split; [|reflexivity]. assert (S0 := ok_size _ _ OK e). nia. }
          specialize (G Gp). cbn [Nat.eqb] in G. destruct (velems _ _ _ _ _ _) as [out err| |]; cbn [runs]; auto.
          intros dst. destruct (G dst) as [N HN]. exists (S N). intros [|N'] HN'; [lia|]. specialize (HN N' ltac:(lia)). rewrite app_nil_r in HN.
          cbn [exec]. rewrite Q2. cbn [onSome]. replace (a =? 0) with false by lia.
          destruct (Z.of_nat (length vs) =? 0) eqn:El.
          -- destruct vs; [|cbn [length] in El; lia]. cbn [length exec_elems] in HN. exact HN.
          -- unfold exec_array. cbn [andb]. rewrite Nat2Z.id. exact HN.
    - (* array *)
      assert (Te : tok e). { assert (G := under_ok H (ok_wf _ _ OK) t Ht). rewrite Eu in G. exact G. }
      destruct (compile H k e ca false) as [i'|] eqn:Ec; [|discriminate]. injection Hc as <-. destruct v; try exact I.
      destruct (inv_arr _ _ _ Hr) as (e0 & Q1 & Q4). rewrite Eu in Q1. injection Q1 as -> <-.
      destruct (byte_elem H e && has (o_flags o) byteArrayAsString) eqn:Eb.
      + destruct (vbytes vs) as [b|] eqn:Evb; [|exact I]. apply runs_ret. intros dst N. cbn [exec]. unfold exec_array. rewrite Eb.
        apply Bool.andb_true_iff in Eb. destruct Eb as [Eb _]. assert (Ue := byte_elem_under e Eb).
        rewrite (ok_byte _ _ OK e Ue) in Q4. destruct l as [a|w off].
        * destruct (vbytes_rd e Ue vs a b Evb) as [R1 R2]. { intros j v Hj. specialize (Q4 j v Hj). rewrite Z.mul_1_r in Q4. exact Q4. }
          rewrite R1. cbn [onSome]. f_equal. change (encode_string dst b o = dst ++ encode_string [] b o). rewrite encode_string_app by exact R2. reflexivity.
        * destruct vs as [|v vs].
          -- injection Evb as <-. cbn [length]. f_equal. change (dst ++ [34; 34] = dst ++ encode_string [] [] o). f_equal.
             unfold encode_string, appendEscapedBytes, appendEscapedBytes_opt. destruct (has (o_flags o) noStringEscaping); reflexivity.
          -- exfalso. specialize (Q4 0%nat v eq_refl). cbn [vbytes] in Evb. destruct v; try discriminate. destruct (inv_int _ _ _ Q4) as (k' & P1 & P2 & _).
             rewrite Ue in P1. injection P1 as <-. unfold rd_int in P2. cbn in P2. destruct (off + _ =? 0); discriminate.
      + assert (G := velems_runs (venc H vcall o n) e ca i' (h_size H e) l vs 0 []).
        assert (Gp : forall j v, nth_error vs j = Some v -> runs (venc H vcall o n e ca false v) (fun N => ex N i' (ladd l (Z.of_nat (0 + j) * h_size H e)))).
        { intros j v Hj. apply (IH k e ca false v); [exact Te | apply Q4; exact Hj | | exact Ec]. intros P C. assert (NP : is_ptr H t = false) by (unfold is_ptr; rewrite Eu; reflexivity).
            destruct (Ha NP C) as (a & A1 & ->). eexists. split; [|reflexivity]. assert (S0 := ok_size _ _ OK e). nia. }
        specialize (G Gp). cbn [Nat.eqb] in G. destruct (velems _ _ _ _ _ _) as [out err| |]; cbn [runs]; auto.
        intros dst. destruct (G dst) as [N HN]. exists (S N). intros [|N'] HN'; [lia|]. specialize (HN N' ltac:(lia)). rewrite app_nil_r in HN.
        cbn [exec]. unfold exec_array. rewrite Eb. exact HN.
    - (* map *)
      assert (Tk : tok kt /\ tok et). { assert (G := under_ok H (ok_wf _ _ OK) t Ht). rewrite Eu in G. exact G. }
      destruct Tk as [Tk Te]. destruct (key_ok H kt) eqn:Ek; cbn [negb] in *.
      2:{ injection Hc as <-. apply runs_ret. intros dst N. rewrite app_nil_r. reflexivity. }
      destruct (if isString E kt then Some IString else compile H k kt false false) as [ki|] eqn:Eki; [|discriminate].
      destruct (compile H k et false false) as [vi|] eqn:Evi; [|discriminate]. injection Hc as <-.
      destruct v; try exact I.
      + destruct (inv_nil _ _ Hr) as (_ & _ & Q & _). apply runs_ret. intros dst N. cbn [exec]. unfold rd_word. rewrite Q. reflexivity.
      + destruct (inv_map _ _ _ Hr) as (k0 & e0 & a & addrs & Q1 & Q2 & Q3 & Q4 & Q5 & Q6). rewrite Eu in Q1. injection Q1 as <- <-.
        destruct es as [|kv0 es0].
        { destruct addrs; [|discriminate]. apply runs_ret. intros dst N. cbn [exec]. unfold rd_word. rewrite Q2.
          replace (a =? 0) with false by lia. rewrite Q4. reflexivity. }
        set (es := kv0 :: es0) in *.
        eapply runs_step with (f := fun N dst => exec_entries H o (kvlocs (ex N) (key_wrap H kt ki) vi addrs) (dst ++ [123])).
        2:{ intros dst N. cbn [exec]. unfold rd_word. rewrite Q2. replace (a =? 0) with false by lia. rewrite Q4.
            replace (length addrs =? 0)%nat with false by (rewrite Q5; reflexivity). reflexivity. }
        set (vr := fun x : (Z * Z) * (val * val) => (vkey H o (venc H vcall o n) kt (fst (snd x)), venc H vcall o n et false false (snd (snd x)))).
        set (mk := fun N (x : (Z * Z) * (val * val)) => (ex N (key_wrap H kt ki) (LMem (fst (fst x))), ex N vi (LMem (snd (fst x))))).
        assert (G : runs (ventries H o (map vr (combine addrs es))) (fun N dst => exec_entries H o (map (mk N) (combine addrs es)) (dst ++ [123]))).
        { apply ventries_runs. intros [[ka va] [kv vv]] Hx. destruct (combine_in_nth _ _ _ _ Hx) as (j & J1 & J2).
          destruct (Q6 _ _ _ _ _ J1 J2) as [W1 W2]. cbn [vr mk fst snd]. split.
          - unfold vkey, key_wrap. destruct (isString E kt) eqn:Es; cbn [negb andb].
            + injection Eki as <-. destruct kv; try exact I. cbn [quote_if]. unfold isString in Es.
              assert (P : is_ptr H kt = false) by (unfold is_ptr; destruct (under E kt); auto; discriminate). rewrite P, Bool.andb_false_r.
              destruct (inv_str _ _ _ W1) as (_ & V1 & V2). apply runs_ret. intros dst N. cbn [exec]. rewrite V1. cbn [onSome]. rewrite encode_string_app by exact V2. reflexivity.
            + destruct (h_impl H kt MText) eqn:Eit; cbn [negb andb quote_if vquote_if].
              * destruct (is_ptr H kt) eqn:Eip; cbn [andb].
                -- assert (Nil : is_nil m (LMem ka) = Some (vnil kv)).
                   { eapply is_nil_spec; eauto. unfold is_ptr in Eip. unfold isNilable. destruct (under E kt); try discriminate; reflexivity. }
                   destruct (vnil kv) eqn:Ev.
                   ++ apply runs_ret. intros dst N. cbn [exec]. rewrite Nil. reflexivity.
                   ++ eapply runs_step; [eapply (IH k kt false false kv (LMem ka) ki); eauto; intros _ C; discriminate|].
                      intros dst N. cbn [exec]. rewrite Nil. reflexivity.
                -- eapply IH; eauto. intros _ C; discriminate.
              * apply runs_quoted. eapply IH; eauto. intros _ C; discriminate.
          - eapply IH; eauto. intros _ C; discriminate. }
        unfold vr in G. rewrite (combine_snd_map (fun kv => (vkey H o (venc H vcall o n) kt (fst kv), venc H vcall o n et false false (snd kv)))) in G by assumption.
        destruct (ventries H o _) as [out err| |]; cbn [runs] in *; auto.
        intros dst. destruct (G dst) as [N HN]. exists N. intros N' HN'. rewrite <- (HN N' HN'). f_equal. unfold mk.
        rewrite (combine_fst_map (fun kv => (ex N' (key_wrap H kt ki) (LMem (fst kv)), ex N' vi (LMem (snd kv))))) by assumption. reflexivity.
    - (* struct *)
      injection Hc as <-. destruct v; try exact I. unfold vstruct.
      destruct (fields_of H t) as [|f0 fs0] eqn:Ef.
      + apply runs_const. intros dst [|N]; cbn [exec]; unfold struct_body; rewrite Ef; reflexivity.
      + destruct (structFields H n t) as [sfs|] eqn:Es; [|exact I].
        assert (St : structural E t) by (exists fs; exact Eu).
        assert (NP : is_ptr H t = false) by (unfold is_ptr; rewrite Eu; reflexivity).
        destruct (build_fields_total t ca sfs) as (kb & ss & Hb).
        { intros f Hf. destruct (field_candidate n t sfs f Ht Es Hf) as (p & sq & w & i & d & u & Ei & Hp & Hw & Hi & Hsq).
          assert (Hu := promoted_type _ _ _ _ _ _ _ Hp Hi Hw). rewrite <- Ei in Hu. exists u. split; [exact Hu|]. eapply type_by_index_ok; eauto. }
        assert (G := vfields_runs (venc H vcall o n) kb n t ca l (VStruct vs) sfs Ht Es Hr St (Ha NP)
          (fun k' t' q' x l' i' T R A C => IH k' t' ca q' x l' i' T R (fun _ => A) C) sfs ss true [] (incl_refl _) Hb).
        destruct (vfields _ _ _ _ _ _ _ _ _) as [out err| |]; cbn [runs]; auto.
        intros dst. destruct (G dst) as [N HN]. exists (S (Nat.max N (Nat.max n kb))). intros [|N'] HN'; [lia|].
        cbn [exec]. unfold struct_body. rewrite Ef. rewrite (structFields_mono H n N' t sfs Es) by lia.
        rewrite (build_fields_mono H kb N' t ca sfs ss Hb) by lia. specialize (HN N' ltac:(lia)). rewrite app_nil_r in HN. exact HN.
    - exact I. - exact I. - exact I. - exact I. - exact I. - exact I.
  Qed.
End Refine.
