(** Tools for examples: a value is laid out in memory by [place]; [readv]
    reads it back and shows that memory holds it. *)
From Coq Require Import Permutation Sorted.
From Verif Require Import Base IntModel JsonSpec OptionsModel TypesModel TypesFacts TimeModel FloatModel MemModel FieldsSpec FieldsModel FieldsProof InstrModel ExecModel ValueModel
  ExecProof VencFacts MarshalThm DocSpec EntriesFacts PartFacts SafeProof ApiFacts PartsThm ShapeThm CallFacts ExampleHost ExampleConst.

Definition int_rangeb (k : ikind) (n : Z) : bool :=
  if signed k then (- 2 ^ (width k - 1) <=? n) && (n <? 2 ^ (width k - 1)) else (0 <=? n) && (n <? 2 ^ width k).
Definition gtime_okb (g : gtime) : bool :=
  (- 2 ^ 63 <=? t_unix g) && (t_unix g <? 2 ^ 63) && (0 <=? t_nsec g) && (t_nsec g <? 1000000000) && (- 2 ^ 31 <=? t_offset g) && (t_offset g <? 2 ^ 31).
Definition bytes_okb (s : bytes) : bool := forallb (fun c => (0 <=? c) && (c <? 256)) s.

Lemma bytes_okb_ok s : bytes_okb s = true -> bytes_ok s.
Proof. unfold bytes_okb. rewrite forallb_forall. intros Hs. apply Forall_forall. intros c Hc. specialize (Hs c Hc). unfold is_byte. lia. Qed.

Definition fval_eqb (a b : fval) : bool :=
  match a, b with
  | FNaN, FNaN => true
  | FInf s, FInf s' | FZero s, FZero s' => Bool.eqb s s'
  | FFin s p e, FFin s' p' e' => Bool.eqb s s' && (p =? p')%positive && (e =? e')
  | _, _ => false
  end.
Lemma fval_eqb_eq a b : fval_eqb a b = true -> a = b.
Proof.
  destruct a, b; cbn; try discriminate; intros E; try (apply Bool.eqb_prop in E; congruence); [reflexivity|].
  apply andb_prop in E. destruct E as [E E3]. apply andb_prop in E. destruct E as [E1 E2]. apply Bool.eqb_prop in E1. apply Pos.eqb_eq in E2. apply Z.eqb_eq in E3. congruence.
Qed.

Section Read.
  Variable H : host.
  Notation E := (h_env H).
  Notation tok := (typ_ok (h_letter H) (h_udigit H)).

  (** ** Laying out *)
  Fixpoint put_list {A} (f : A -> Z -> Z -> list (Z * cell) * Z) (l : list A) (a step free : Z) : list (Z * cell) * Z :=
    match l with
    | [] => ([], free)
    | x :: l' => let '(cs, free) := f x a free in let '(cs', free) := put_list f l' (a + step) step free in (cs ++ cs', free)
    end.

  Definition put_bytes (s : bytes) (a : Z) : list (Z * cell) := map (fun ib => (a + Z.of_nat (fst ib), CInt KUint8 (snd ib))) (combine (seq 0 (length s)) s).

  Fixpoint put (n : nat) (t : typ) (v : val) (a free : Z) {struct n} : list (Z * cell) * Z :=
    match n with
    | O => ([], free)
    | S n =>
      let eface_of x free : eface * list (Z * cell) * Z :=
        match x with
        | VIface td y =>
          let '(cs, free') := put n td y free (free + 1000) in
          (Some (td, match is_direct H n td, lookup cs free with Some true, Some (CPtr w) => w | _, _ => free end), cs, free')
        | _ => (None, [], free)
        end in
      match v with
      | VBool b => ([(a, CBool b)], free)
      | VInt z => ([(a, CInt (match under E t with TInt k => k | _ => KInt end) z)], free)
      | VFloat f => ([(a, CFloat (match under E t with TFloat b => b | _ => true end) f)], free)
      | VStr s => ((a, CPtr free) :: (a + 8, CInt KInt (Z.of_nat (length s))) :: put_bytes s free, free + Z.of_nat (length s) + 1)
      | VNil => ((a, CPtr 0) :: match under E t with TSlice _ => [(a + 8, CInt KInt 0)] | _ => [] end, free)
      | VPtr x => let '(cs, free') := put n (match under E t with TPtr e => e | _ => TBool end) x free (free + 1000) in ((a, CPtr free) :: cs, free')
      | VIface td x =>
        let ty := match under E t with TIface (Some _) => CTab td | _ => CType td end in
        match is_direct H n td with
        | Some true => let '(cs, free') := put n td x (a + 8) free in ((a, ty) :: cs, free')
        | _ => let '(cs, free') := put n td x free (free + 1000) in ((a, ty) :: (a + 8, CPtr free) :: cs, free')
        end
      | VSlice vs =>
        let e := match under E t with TSlice e => e | _ => TBool end in
        let '(cs, free') := put_list (put n e) vs free (h_size H e) (free + h_size H e * Z.of_nat (length vs) + 1) in
        ((a, CPtr free) :: (a + 8, CInt KInt (Z.of_nat (length vs))) :: cs, free')
      | VArr vs =>
        let e := match under E t with TArray _ e => e | _ => TBool end in
        put_list (put n e) vs a (h_size H e) free
      | VMap es =>
        let '(kt, et) := match under E t with TMap kt et => (kt, et) | _ => (TBool, TBool) end in
        let '(cs, free') := put_list (fun e a free => let '(c1, free) := put n kt (fst e) a free in let '(c2, free) := put n et (snd e) (a + 500) free in (c1 ++ c2, free))
          es (free + 1000) 1000 (free + 1000 + 1000 * Z.of_nat (length es)) in
        ((a, CPtr free) :: (free, CMap (map (fun i => (free + 1000 + 1000 * Z.of_nat i, free + 1000 + 1000 * Z.of_nat i + 500)) (seq 0 (length es)))) :: cs, free')
      | VStruct vs =>
        let fs := fields_of H t in
        put_list (fun iv _ free => put n (snd (nth (fst iv) fs (mkFD [] false false [], TBool))) (snd iv) (a + h_off H fs (fst iv)) free) (combine (seq 0 (length vs)) vs) 0 0 free
      | VTime g => ([(a, CTime g)], free)
      | VSync es =>
        let '(l, cs, free) := fold_left (fun acc e =>
          let '(l, cs, free) := acc in
          let '(k, c1, free) := eface_of (fst e) free in
          let '(x, c2, free) := eface_of (snd e) free in
          (l ++ [(k, x)], cs ++ c1 ++ c2, free)) es ([], [], free) in
        ((a, CSync l) :: cs, free)
      | VOpaque => ([], free)
      end
    end.

  Definition place (t : typ) (v : val) : list (Z * cell) := fst (put 30 t v 100 10000).
  Definition mem_of (t : typ) (v : val) : mem := lookup (place t v).
  Definition word_of (t : typ) (v : val) : Z :=
    match is_direct H 30 t, mem_of t v 100 with Some true, Some (CPtr w) => w | _, _ => 100 end.

  (** ** Checking that memory holds a value *)
  Variable tokb : typ -> bool.
  Hypothesis tokb_ok : forall t, tokb t = true -> tok t.
  Variable m : mem.

  Fixpoint all_i {A} (f : nat -> A -> bool) (i : nat) (l : list A) : bool :=
    match l with [] => true | x :: l' => f i x && all_i f (S i) l' end.

  Lemma all_i_nth {A} (f : nat -> A -> bool) l : forall i, all_i f i l = true -> forall j x, nth_error l j = Some x -> f (i + j)%nat x = true.
  Proof.
    induction l as [|y l IH]; intros i Ha j x Hj; [destruct j; discriminate|]. cbn [all_i] in Ha. apply andb_prop in Ha. destruct Ha as [H1 H2].
    destruct j as [|j]; cbn in Hj; [injection Hj as ->; rewrite Nat.add_0_r; exact H1|]. replace (i + S j)%nat with (S i + j)%nat by lia. eapply IH; eauto.
  Qed.

  Definition ptr_at (l : loc) : option Z := match rd m l with Some (CPtr a) => Some a | _ => None end.

  Fixpoint heldb (n : nat) (l : loc) (t : typ) (v : val) : bool :=
    match n with
    | O => false
    | S n =>
      let efaceb (e : eface) (x : val) : bool :=
        match e, x with
        | None, VNil => true
        | Some (td, w), VIface td' y =>
          typ_eqb td td' && tokb td && negb (is_iface H td) &&
          match is_direct H n td with Some true => heldb n (LTmp w 0) td y | Some false => heldb n (LMem w) td y | None => false end
        | _, _ => false
        end in
      match v with
      | VBool b => match under E t, rd m l with TBool, Some (CBool b') => Bool.eqb b b' | _, _ => false end
      | VInt z => match under E t with TInt k => match rd_int m l k with Some z' => (z =? z') && int_rangeb k z | None => false end | _ => false end
      | VFloat f => match under E t, rd m l with TFloat b, Some (CFloat b' f') => Bool.eqb b b' && fval_eqb f f' | _, _ => false end
      | VStr s => match under E t, rd_string m l with TString, Some s' => bytes_eqb s s' && bytes_okb s | _, _ => false end
      | VNil =>
        match under E t with TString => false | _ => true end && isNilable E t && match ptr_at l with Some 0 => true | _ => false end &&
        match under E t with TSlice _ => match rd_int m (ladd l 8) KInt with Some 0 => true | _ => false end | _ => true end
      | VPtr x => match under E t, ptr_at l with TPtr e, Some a => (0 <? a) && heldb n (LMem a) e x | _, _ => false end
      | VIface td x =>
        match under E t, rd m l, ptr_at (ladd l 8) with
        | TIface None, Some (CType td'), Some w | TIface (Some _), Some (CTab td'), Some w => typ_eqb td td' && efaceb (Some (td, w)) v
        | _, _, _ => false
        end
      | VSlice vs =>
        match under E t, rd_header m l with
        | TSlice e, Some (a, k) => (k =? Z.of_nat (length vs)) && (0 <? a) && all_i (fun i x => heldb n (LMem (a + Z.of_nat i * h_size H e)) e x) 0 vs
        | _, _ => false
        end
      | VArr vs =>
        match under E t with
        | TArray k e => (length vs =? k)%nat && all_i (fun i x => heldb n (ladd l (Z.of_nat i * h_size H e)) e x) 0 vs
        | _ => false
        end
      | VMap es =>
        match under E t, ptr_at l with
        | TMap kt et, Some a =>
          (0 <? a) && match m a with
          | Some (CMap addrs) => (length addrs =? length es)%nat &&
            all_i (fun i e => match nth_error addrs i with Some (ka, va) => heldb n (LMem ka) kt (fst e) && heldb n (LMem va) et (snd e) | None => false end) 0 es
          | _ => false
          end
        | _, _ => false
        end
      | VStruct vs =>
        match under E t with
        | TStruct fs =>
          match t with TTime | TSyncMap => false | _ => true end && (length vs =? length fs)%nat &&
          all_i (fun i x => match nth_error fs i with Some (_, u) => heldb n (ladd l (h_off H fs i)) u x | None => false end) 0 vs
        | _ => false
        end
      | VTime g => match t, rd m l with TTime, Some (CTime g') => (t_unix g =? t_unix g') && (t_nsec g =? t_nsec g') && (t_offset g =? t_offset g') && gtime_okb g | _, _ => false end
      | VSync es =>
        match t, rd m l with
        | TSyncMap, Some (CSync efs) => (length efs =? length es)%nat &&
          all_i (fun i e => match nth_error efs i with Some (ke, ve) => efaceb ke (fst e) && efaceb ve (snd e) | None => false end) 0 es
        | _, _ => false
        end
      | VOpaque => opaque H t
      end
    end.

  Lemma typ_eqb_true a b : typ_eqb a b = true -> a = b.
  Proof. apply typ_eqb_eq. Qed.

  Lemma heldb_ok n : forall l t v, heldb n l t v = true -> repr H m l t v.
  Proof.
    induction n as [|n IH]; intros l t v Hh; [discriminate|]. cbn [heldb] in Hh.
    set (efaceb := fun (e : eface) (x : val) => match e, x with
        | None, VNil => true
        | Some (td, w), VIface td' y =>
          typ_eqb td td' && tokb td && negb (is_iface H td) &&
          match is_direct H n td with Some true => heldb n (LTmp w 0) td y | Some false => heldb n (LMem w) td y | None => false end
        | _, _ => false
        end) in Hh.
    assert (EF : forall e x, efaceb e x = true -> repr_any H m e x).
    { intros e x He. unfold efaceb in He. destruct e as [[td w]|].
      - destruct x; try discriminate. apply andb_prop in He. destruct He as [He He4]. apply andb_prop in He. destruct He as [He He3]. apply andb_prop in He. destruct He as [He1 He2].
        apply typ_eqb_true in He1. subst t0. apply negb_true_iff in He3.
        destruct (is_direct H n td) as [d|] eqn:Ed; [|discriminate]. assert (D := is_direct_spec H n td d Ed).
        constructor; [apply tokb_ok; exact He2 | exact He3 | intros Hd; apply D in Hd; subst d; apply IH; exact He4 | intros Hd; destruct d; [destruct Hd; apply D; reflexivity | apply IH; exact He4]].
      - destruct x; try discriminate. constructor. }
    destruct v.
    - destruct (under E t) eqn:Eu; try discriminate. destruct (rd m l) as [[]|] eqn:Er; try discriminate. apply Bool.eqb_prop in Hh. subst b0. apply R_bool; assumption.
    - destruct (under E t) eqn:Eu; try discriminate. destruct (rd_int m l k) eqn:Er; [|discriminate]. apply andb_prop in Hh. destruct Hh as [H1 H2]. assert (n0 = z) by lia. subst z.
      apply R_int with k; [assumption | assumption|]. unfold int_rangeb in H2. unfold int_range. destruct (signed k); lia.
    - destruct (under E t) eqn:Eu; try discriminate. destruct (rd m l) as [[]|] eqn:Er; try discriminate. apply andb_prop in Hh. destruct Hh as [H1 H2]. apply Bool.eqb_prop in H1. apply fval_eqb_eq in H2. subst. eapply R_float; eassumption.
    - destruct (under E t) eqn:Eu; try discriminate. destruct (rd_string m l) eqn:Er; [|discriminate]. apply andb_prop in Hh. destruct Hh as [H1 H2]. apply bytes_eqb_eq in H1. subst b.
      apply R_str; [assumption | assumption | apply bytes_okb_ok; exact H2].
    - apply andb_prop in Hh. destruct Hh as [Hh H4]. apply andb_prop in Hh. destruct Hh as [Hh H3]. apply andb_prop in Hh. destruct Hh as [H1 H2].
      apply R_nil; [destruct (under E t); discriminate | exact H2 | |].
      + unfold ptr_at in H3. destruct (rd m l) as [[]|]; try discriminate. destruct a; try discriminate. reflexivity.
      + intros [e Eu]. rewrite Eu in H4. destruct (rd_int m (ladd l 8) KInt) as [[]|]; try discriminate. reflexivity.
    - destruct (under E t) eqn:Eu; try discriminate. unfold ptr_at in Hh. destruct (rd m l) as [[]|] eqn:Er; try discriminate. apply andb_prop in Hh. destruct Hh as [H1 H2].
      eapply R_ptr; eauto. lia.
    - destruct (under E t) as [ | | | | | | | |ms| | | | | | | | | | | ] eqn:Eu; try discriminate.
      assert (X : exists w, rd m l = Some (match ms with None => CType t0 | Some _ => CTab t0 end) /\ rd m (ladd l 8) = Some (CPtr w) /\ efaceb (Some (t0, w)) (VIface t0 v) = true).
      { unfold ptr_at in Hh. destruct ms; destruct (rd m l) as [[]|] eqn:Er; try discriminate; destruct (rd m (ladd l 8)) as [[]|] eqn:Er2; try discriminate;
        apply andb_prop in Hh; destruct Hh as [H1 H2]; apply typ_eqb_true in H1; subst; eauto. }
      destruct X as (w & X1 & X2 & X3). apply EF in X3. inversion X3; subst. eapply R_iface; eauto.
    - destruct (under E t) eqn:Eu; try discriminate. destruct (rd_header m l) as [[a k]|] eqn:Er; [|discriminate]. apply andb_prop in Hh. destruct Hh as [Hh H3]. apply andb_prop in Hh. destruct Hh as [H1 H2].
      assert (k = Z.of_nat (length vs)) by lia. subst k. eapply R_slice; eauto; [lia|]. intros i x Hi. apply IH. exact (all_i_nth _ _ _ H3 i x Hi).
    - destruct (under E t) eqn:Eu; try discriminate. apply andb_prop in Hh. destruct Hh as [H1 H2]. eapply R_arr; eauto; [apply Nat.eqb_eq; exact H1|].
      intros i x Hi. apply IH. exact (all_i_nth _ _ _ H2 i x Hi).
    - destruct (under E t) eqn:Eu; try discriminate. unfold ptr_at in Hh. destruct (rd m l) as [[]|] eqn:Er; try discriminate. apply andb_prop in Hh. destruct Hh as [H1 H2].
      destruct (m a) as [[]|] eqn:Em; try discriminate. apply andb_prop in H2. destruct H2 as [H2 H3].
      eapply R_map; eauto; [lia | apply Nat.eqb_eq; exact H2|]. intros i ka va kv vv Hi He. assert (X := all_i_nth _ _ _ H3 i _ He). cbn [Nat.add fst snd] in X. rewrite Hi in X.
      apply andb_prop in X. destruct X. split; apply IH; assumption.
    - destruct (under E t) eqn:Eu; try discriminate. apply andb_prop in Hh. destruct Hh as [Hh H3]. apply andb_prop in Hh. destruct Hh as [H1 H2].
      eapply R_struct; eauto; [intros ->; discriminate | intros ->; discriminate | apply Nat.eqb_eq; exact H2|]. intros i d u x Hi Hx. assert (X := all_i_nth _ _ _ H3 i x Hx). cbn [Nat.add] in X. rewrite Hi in X.
      apply IH. exact X.
    - destruct t; try discriminate. destruct (rd m l) as [[]|] eqn:Er; try discriminate. unfold gtime_okb in Hh.
      assert (X : t0 = t). { destruct t0 as [u s f], t as [u' s' f']. cbn [t_unix t_nsec t_offset] in Hh. f_equal; lia. }
      subst t. apply R_time; [exact Er|]. unfold gtime_ok. lia.
    - destruct t; try discriminate. destruct (rd m l) as [[]|] eqn:Er; try discriminate. apply andb_prop in Hh. destruct Hh as [H1 H2].
      eapply R_sync; eauto; [apply Nat.eqb_eq; exact H1|]. intros i ke ve kv vv Hi He. assert (X := all_i_nth _ _ _ H2 i _ He). cbn [Nat.add fst snd] in X. rewrite Hi in X.
      apply andb_prop in X. destruct X. split; apply EF; assumption.
    - apply R_opaque. exact Hh.
  Qed.

  Definition holdsb (n : nat) (t : typ) (w : Z) (v : val) : bool :=
    tokb t && negb (is_iface H t) && match is_direct H n t with Some true => heldb n (LTmp w 0) t v | Some false => heldb n (LMem w) t v | None => false end.

  Theorem holdsb_ok n t w v : holdsb n t w v = true -> holds H m t w v.
  Proof.
    unfold holdsb. intros Hh. apply andb_prop in Hh. destruct Hh as [Hh H3]. apply andb_prop in Hh. destruct Hh as [H1 H2]. apply negb_true_iff in H2.
    destruct (is_direct H n t) as [d|] eqn:Ed; [|discriminate]. assert (D := is_direct_spec H n t d Ed).
    constructor; [apply tokb_ok; exact H1 | exact H2 | intros Hd; apply D in Hd; subst d; eapply heldb_ok; eauto | intros Hd; destruct d; [destruct Hd; apply D; reflexivity | eapply heldb_ok; eauto]].
  Qed.
End Read.

(** ** Checking that every part is readable *)
Section Readable.
  Variable H : host.
  Variable o : encOpts.
  Notation E := (h_env H).
  Notation opt := (has (o_flags o)).

  Definition dyn_okb (n : nat) (t : typ) : bool :=
    opaque H t || match is_direct H n t, isInlined H n t with Some d, Some i => negb d || i | _, _ => false end.
  Definition is_time (t : typ) : bool := match t with TTime => true | _ => false end.
  Definition is_text (x : option (mkind * bool)) : bool := match x with Some (MText, _) => true | _ => false end.
  Definition key_readableb (kt : typ) (ca : bool) : bool :=
    opt unsortedMap || isString E kt || negb (h_impl H kt MText) || (is_time kt && negb (opt unixTime)) || (negb (native kt) && is_text (method_of H kt ca)).

  (** A path is unshared when, at each depth with room left, no later field of
      the struct is anonymous. *)
  Definition type_at (t : typ) (p : list nat) : typ :=
    fold_left (fun t i => match nth_error (fields_of H t) i with Some (_, u) => strip_ptr u | None => t end) p t.
  Definition lastb (t : typ) (i : nat) : bool := forallb (fun x => negb (fd_anon (fst x))) (skipn (Datatypes.S i) (fields_of H t)).
  Definition unsharedb (t : typ) (p : list nat) : bool :=
    forallb (fun k => (cap_of k =? k)%nat || lastb (type_at t (firstn k p)) (nth k p 0%nat)) (seq 0 (length p)).

  Lemma type_at_path t p sq w : epath E (h_off H) (h_letter H) (h_udigit H) t p sq w -> type_at t p = w.
  Proof.
    unfold type_at. induction 1 as [|p sq w i b fs u Hp IH He Hs]; [reflexivity|]. rewrite fold_left_app, IH. cbn [fold_left].
    destruct He as (fs' & d & u' & n & opts & A1 & A2 & _ & _ & _ & _ & A7 & _). unfold struct_of in A1. unfold fields_of. rewrite A1, A2.
    destruct A7 as [-> | [A7 ->]]; [reflexivity|]. destruct u'; try reflexivity. destruct (A7 u'); reflexivity.
  Qed.

  Lemma unsharedb_ok t p sq w : epath E (h_off H) (h_letter H) (h_udigit H) t p sq w -> unsharedb t p = true -> unshared E (h_off H) (h_letter H) (h_udigit H) t p.
  Proof.
    induction 1 as [|p sq w i b fs u Hp IH He Hs]; intros Hb; [constructor|]. unfold unsharedb in Hb. rewrite app_length in Hb. cbn [length] in Hb.
    rewrite Nat.add_1_r, seq_S, forallb_app in Hb. apply andb_prop in Hb. destruct Hb as [H1 H2]. cbn [forallb Nat.add] in H2. rewrite andb_true_r, firstn_app, firstn_all, Nat.sub_diag in H2. cbn [firstn] in H2.
    rewrite app_nil_r, nth_middle, (type_at_path _ _ _ _ Hp) in H2. econstructor; [exact Hp | |].
    - apply IH. unfold unsharedb. rewrite forallb_forall in *. intros k Hk. specialize (H1 k Hk). apply in_seq in Hk. rewrite firstn_app in H1. replace (k - length p)%nat with 0%nat in H1 by lia.
      cbn [firstn] in H1. rewrite app_nil_r, app_nth1 in H1 by lia. exact H1.
    - apply orb_prop in H2. destruct H2 as [H2|H2]; [left; apply cap_of_roomless, Nat.eqb_eq; exact H2|]. right. intros j bj uj Hj (fs' & d & u' & n & opts & A1 & A2 & _ & A4 & _).
      unfold lastb in H2. rewrite forallb_forall in H2. unfold struct_of in A1. assert (Hin : In (d, u') (skipn (Datatypes.S i) (fields_of H w))).
      { unfold fields_of. rewrite A1. rewrite <- (firstn_skipn (Datatypes.S i) fs') in A2. rewrite nth_error_app2 in A2 by (rewrite firstn_length; lia). eapply nth_error_In; eauto. }
      specialize (H2 _ Hin). cbn [fst] in H2. rewrite A4 in H2. discriminate.
  Qed.

  Fixpoint readableb (n : nat) (t : typ) (ca q : bool) (v : val) : bool :=
    match n with
    | O => false
    | S n =>
      if native t then
        match t, v with
        | TSyncMap, VSync es =>
          forallb (fun e =>
            match fst e with
            | VIface kt k => dyn_okb n kt && key_readableb kt (is_ptr H kt) && (isString E kt || readableb n kt (is_ptr H kt) false k)
            | _ => true
            end &&
            match snd e with VIface vt x => dyn_okb n vt && readableb n vt (is_ptr H vt) false x | _ => false end) es
        | _, _ => true
        end
      else
        match method_of H t ca with
        | Some (_, true) => true
        | Some (_, false) => match under E t with TPtr _ | TIface _ => true | _ => match is_direct H n t with Some false => true | _ => false end end
        | None =>
          match under E t, v with
          | TPtr e, VPtr x => readableb n e true q x
          | TIface (Some _), VIface _ _ => false
          | TIface None, VIface td x => dyn_okb n td && readableb n td (is_ptr H td) false x
          | TSlice e, VSlice vs => byte_elem H e || forallb (readableb n e true false) vs
          | TArray _ e, VArr vs => (byte_elem H e && opt byteArrayAsString) || forallb (readableb n e ca false) vs
          | TMap kt et, VMap es =>
            key_readableb kt false && forallb (fun e => (isString E kt || (h_impl H kt MText && is_ptr H kt && vnil (fst e)) || readableb n kt false false (fst e)) &&
              readableb n et false false (snd e)) es
          | TStruct _, VStruct vs =>
            match structFields H n t with
            | Some fs => forallb (fun f => isDeniedField o (f_name f) ||
                (unsharedb t (removelast (f_index f)) &&
                 match vget (f_index f) v, type_by_index H t (f_index f) with Some (Some x), Some ft => readableb n ft ca (quoted H f ft) x | _, _ => true end)) fs
            | None => false
            end
          | _, _ => true
          end
        end
    end.

  Lemma dyn_okb_ok n t : dyn_okb n t = true -> dyn_ok H t.
  Proof.
    unfold dyn_okb, dyn_ok. intros Hd. apply orb_prop in Hd. destruct Hd as [Hd|Hd]; [left; exact Hd|]. right. intros Di.
    destruct (is_direct H n t) as [d|] eqn:E1; [|discriminate]. destruct (isInlined H n t) as [i|] eqn:E2; [|discriminate].
    apply (is_direct_spec H n t d E1) in Di. subst d. cbn in Hd. subst i. exact (proj1 (isInlined_spec H n t true E2) eq_refl).
  Qed.

  Lemma key_readableb_ok kt ca : key_readableb kt ca = true -> key_readable H o kt ca.
  Proof.
    unfold key_readableb, key_readable. intros Hk. repeat (apply orb_prop in Hk; destruct Hk as [Hk|Hk]); auto.
    - apply negb_true_iff in Hk. auto.
    - apply andb_prop in Hk. destruct Hk as [H1 H2]. apply negb_true_iff in H2. destruct kt; try discriminate. auto 6.
    - apply andb_prop in Hk. destruct Hk as [H1 H2]. apply negb_true_iff in H1. destruct (method_of H kt ca) as [[[] hp]|]; try discriminate. right; right; right; right. eauto.
  Qed.

  Lemma readableb_ok n : forall t ca q v y, readableb n t ca q v = true -> part H o (t, ca, q, v) y -> readable_node H o y.
  Proof.
    induction n as [|n IH]; intros t ca q v y Hb Hp; [discriminate|]. cbn [readableb] in Hb.
    assert (A : readable_node H o (t, ca, q, v) /\ forall t' ca' q' v', child H o (t, ca, q, v) (t', ca', q', v') -> readableb n t' ca' q' v' = true).
    { destruct (native t) eqn:En.
      - split.
        + destruct t; try discriminate; try exact I. unfold readable_node. destruct v; try exact I. rewrite forallb_forall in Hb. intros k x Hi. specialize (Hb _ Hi). cbn [fst snd] in Hb.
          apply andb_prop in Hb. destruct Hb as [H1 H2]. split; [destruct x; discriminate|]. split.
          * intros kt k' ->. apply andb_prop in H1. destruct H1 as [H1 _]. apply andb_prop in H1. destruct H1 as [H1 H3]. split; [eapply dyn_okb_ok; eauto | apply key_readableb_ok; assumption].
          * intros vt x' ->. apply andb_prop in H2. eapply dyn_okb_ok, H2.
        + intros t' ca' q' v' Hc. inversion Hc; subst; try (match goal with Hpl : plain _ _ _ |- _ => destruct Hpl; congruence end).
          * rewrite forallb_forall in Hb. match goal with Hi : In _ _ |- _ => specialize (Hb _ Hi) end. cbn [fst snd] in Hb. apply andb_prop in Hb. destruct Hb as [X1 _].
            apply andb_prop in X1. destruct X1 as [_ X1]. match goal with Hs : isString _ _ = false |- _ => rewrite Hs in X1 end. exact X1.
          * rewrite forallb_forall in Hb. match goal with Hi : In _ _ |- _ => specialize (Hb _ Hi) end. cbn [fst snd] in Hb. apply andb_prop in Hb. destruct Hb as [_ X1].
            apply andb_prop in X1. apply X1.
      - assert (RN : forall P : Prop, (match method_of H t ca with
            | Some (_, true) => True
            | Some (_, false) => match under E t with TPtr _ | TIface _ => True | _ => ~ direct H t end
            | None =>
              match under E t, v with
              | TIface (Some _), VIface _ _ => False
              | TIface None, VIface td _ => dyn_ok H td
              | TMap kt _, VMap _ => key_readable H o kt false
              | TStruct _, VStruct _ => forall n fs f p sq w i, structFields H n t = Some fs -> In f fs -> ~ denied o (f_name f) -> f_index f = p ++ [i] ->
            epath E (h_off H) (h_letter H) (h_udigit H) t p sq w -> unshared E (h_off H) (h_letter H) (h_udigit H) t p
              | _, _ => True
              end
            end /\ P) -> readable_node H o (t, ca, q, v) /\ P).
        { intros P HP. destruct t; try discriminate En; exact HP. }
        apply RN. clear RN. destruct (method_of H t ca) as [[k hp]|] eqn:Em.
        + split; [|intros t' ca' q' v' Hc; inversion Hc; subst; try discriminate En; match goal with Hpl : plain _ _ _ |- _ => destruct Hpl; congruence end].
          destruct hp; [exact I|]. destruct (under E t); try exact I; (destruct (is_direct H n t) as [[]|] eqn:Ed; try discriminate; intros Di; apply (is_direct_spec H n t false Ed) in Di; discriminate).
        + split.
          * destruct (under E t) as [ |ik|fb| | | | | |ms|e|e|an e|kt et|fs|nn| | | | | ] eqn:Eu; try exact I; destruct v; try exact I; [destruct ms; exact I|destruct ms; exact I|destruct ms; exact I|destruct ms; exact I|destruct ms; exact I|destruct ms; exact I| | | | | | | | | | ]; try (destruct ms; exact I).
            -- destruct ms; [discriminate|]. apply andb_prop in Hb. eapply dyn_okb_ok, Hb.
            -- apply andb_prop in Hb. apply key_readableb_ok, Hb.
            -- intros k fs' f p sq w i Hs Hi Nd Hx Hp'. destruct (structFields H n t) as [fs0|] eqn:Es; [|discriminate].
               assert (fs' = fs0) by (eapply structFields_det; eauto). subst fs0. rewrite forallb_forall in Hb. specialize (Hb f Hi). apply orb_prop in Hb. destruct Hb as [Hb|Hb].
               ++ destruct Nd. apply isDeniedField_spec. exact Hb.
               ++ apply andb_prop in Hb. destruct Hb as [Hb _]. rewrite Hx, removelast_last in Hb. eapply unsharedb_ok; eauto.
          * intros t' ca' q' v' Hc. inversion Hc; subst; try discriminate En;
              match goal with Hu : under _ t = _ |- _ => rewrite Hu in Hb end.
            -- exact Hb.
            -- apply andb_prop in Hb. apply Hb.
            -- match goal with Hbe : byte_elem _ _ = false |- _ => rewrite Hbe in Hb end. cbn [orb] in Hb. rewrite forallb_forall in Hb. auto.
            -- match goal with Hbe : byte_elem _ _ && _ = false |- _ => rewrite Hbe in Hb end. cbn [orb] in Hb. rewrite forallb_forall in Hb. auto.
            -- apply andb_prop in Hb. destruct Hb as [_ Hb]. rewrite forallb_forall in Hb. match goal with Hi : In _ _ |- _ => specialize (Hb _ Hi) end. cbn [fst snd] in Hb.
               apply andb_prop in Hb. destruct Hb as [Hb _]. match goal with Hs : isString _ _ = false, Hn : _ && vnil _ = false |- _ => rewrite Hs, Hn in Hb end. exact Hb.
            -- apply andb_prop in Hb. destruct Hb as [_ Hb]. rewrite forallb_forall in Hb. match goal with Hi : In _ _ |- _ => specialize (Hb _ Hi) end. cbn [fst snd] in Hb.
               apply andb_prop in Hb. apply Hb.
            -- match goal with Hs : structFields H ?k t = Some ?fs', Hsh : shown _ _ _ _ ?f _ _, Hi : In ?f ?fs' |- _ => rename Hs into HS; rename Hsh into HSH; rename Hi into HI end.
               destruct (structFields H n t) as [fs0'|] eqn:Es; [|discriminate].
               match type of HS with _ = Some ?g => assert (X : g = fs0') by (eapply structFields_det; eauto) end. subst fs0'. rewrite forallb_forall in Hb. specialize (Hb _ HI). destruct HSH as (Nd & (V1 & V2) & _). apply orb_prop in Hb. destruct Hb as [Hb|Hb].
               ++ destruct Nd. apply isDeniedField_spec. exact Hb.
               ++ rewrite V1, V2 in Hb. apply andb_prop in Hb. apply Hb. }
    inversion Hp; subst; [apply A|]. destruct y0 as [[[t' ca'] q'] v']. eapply IH; [|eassumption]. apply A. assumption.
  Qed.

  (** A whole call, checked by computation. *)
  Theorem call_check (tokb : typ -> bool) m t w v opts n :
    (forall t, tokb t = true -> typ_ok (h_letter H) (h_udigit H) t) ->
    holdsb H tokb m n t w v = true -> call_opts opts = Some o -> dyn_okb n t = true -> readableb n t (is_ptr H t) false v = true ->
    call H m t w v opts o.
  Proof.
    intros T Hh Ho Hd Hr. split; [eapply holdsb_ok; eauto | exact Ho | eapply dyn_okb_ok; eauto|]. intros y Hp. eapply readableb_ok; eauto.
  Qed.
End Readable.

(** ** Sorting *)
Lemma insert_perm x l : Permutation (x :: l) (insert_kv x l).
Proof.
  induction l as [|y l IH]; [reflexivity|]. cbn [insert_kv]. destruct (bytes_ltb (fst x) (fst y)); [reflexivity|]. etransitivity; [apply perm_swap|]. constructor. exact IH.
Qed.
Lemma key_le_trans a b c : key_le a b -> key_le b c -> key_le a c.
Proof.
  unfold key_le. intros A B. destruct (bytes_ltb c a) eqn:C; [|reflexivity]. destruct (bytes_ltb a b) eqn:D.
  - assert (X := bytes_ltb_trans _ _ _ C D). congruence.
  - assert (X := bytes_ltb_total _ _ D A). subst b. congruence.
Qed.
Lemma insert_sorted x l : StronglySorted (fun a b => key_le (fst a) (fst b)) l -> StronglySorted (fun a b => key_le (fst a) (fst b)) (insert_kv x l).
Proof.
  induction l as [|y l IH]; intros Hs; [repeat constructor|]. inversion Hs as [|? ? H1 H2]; subst. cbn [insert_kv]. destruct (bytes_ltb (fst x) (fst y)) eqn:Ex.
  - assert (X : key_le (fst x) (fst y)).
    { unfold key_le. destruct (bytes_ltb (fst y) (fst x)) eqn:Ey; [|reflexivity]. assert (Z := bytes_ltb_trans _ _ _ Ex Ey). rewrite bytes_ltb_irrefl in Z. discriminate. }
    constructor; [exact Hs|]. constructor; [exact X|]. eapply Forall_impl; [|exact H2]. intros z Hz. eapply key_le_trans; eauto.
  - constructor; [apply IH, H1|]. apply Forall_forall. intros z Hz. apply (Permutation_in _ (Permutation_sym (insert_perm x l))) in Hz. destruct Hz as [<-|Hz]; [exact Ex|].
    rewrite Forall_forall in H2. apply H2, Hz.
Qed.
Lemma sort_kvs_ok l : Permutation l (sort_kvs l) /\ StronglySorted (fun a b => key_le (fst a) (fst b)) (sort_kvs l).
Proof.
  induction l as [|x l [A B]]; [split; constructor|]. cbn [sort_kvs]. split; [|apply insert_sorted, B]. etransitivity; [|apply insert_perm]. constructor. exact A.
Qed.
Lemma exH_sort : sort_ok exH.
Proof. exact sort_kvs_ok. Qed.
Lemma constH_sort ds impl result : sort_ok (constH ds impl result).
Proof. exact sort_kvs_ok. Qed.

(** ** Calls on values laid out by [place] *)
Definition callb (H : host) (n : nat) (t : typ) (v : val) (o : encOpts) : bool :=
  holdsb H declb (mem_of H t v) n t (word_of H t v) v && dyn_okb H n t && readableb H o n t (is_ptr H t) false v.

Lemma const_call ds impl result n t v opts o : let H := constH ds impl result in call_opts opts = Some o -> callb H n t v o = true ->
  call H (mem_of H t v) t (word_of H t v) v opts o.
Proof.
  intros H Ho Hb. apply andb_prop in Hb. destruct Hb as [Hb H3]. apply andb_prop in Hb. destruct Hb as [H1 H2]. eapply call_check; eauto. apply declb_ok.
Qed.

(** A host without methods. *)
Definition plainH (ds : list typ) : host := constH ds (fun _ _ => false) (fun _ _ _ => inr 0).
Definition plainV : mkind -> typ -> val -> option Z -> bytes + Z := constV (fun _ _ _ => inr 0).
Lemma plainH_ok ds : okb ds = true -> host_ok (plainH ds) plainV.
Proof. intros Hd. apply constH_ok; [exact Hd | discriminate]. Qed.
Lemma plain_call ds n t v opts o : call_opts opts = Some o -> callb (plainH ds) n t v o = true -> call (plainH ds) (mem_of (plainH ds) t v) t (word_of (plainH ds) t v) v opts o.
Proof. apply const_call. Qed.

(** ** The inner parts of a value, listed *)
Section Kids.
  Variable H : host.
  Variable o : encOpts.
  Notation E := (h_env H).
  Notation opt := (has (o_flags o)).

  Definition plainb (t : typ) (ca : bool) : bool := negb (native t) && match method_of H t ca with None => true | _ => false end.
  Lemma plainb_ok t ca : plainb t ca = true -> DocSpec.plain H t ca.
  Proof. unfold plainb, DocSpec.plain. intros Hb. apply andb_prop in Hb. destruct Hb as [A B]. apply negb_true_iff in A. destruct (method_of H t ca); [discriminate | auto]. Qed.

  Definition drops_nullb (f : field) (ft : typ) : bool := f_omitNil f && (h_impl H ft MJson || h_impl H (TPtr ft) MJson).

  Definition kids (n : nat) (x : node) : list node :=
    let '(t, ca, q, v) := x in
    match t, v with
    | TSyncMap, VSync es => flat_map (fun e => match snd e with VIface vt y => [(vt, is_ptr H vt, false, y)] | _ => [] end) es
    | _, _ =>
      if plainb t ca then
        match under E t, v with
        | TPtr e, VPtr y => [(e, true, q, y)]
        | TIface None, VIface td y => [(td, is_ptr H td, false, y)]
        | TSlice e, VSlice vs => if byte_elem H e then [] else map (fun y => (e, true, false, y)) vs
        | TArray _ e, VArr vs => if byte_elem H e && opt byteArrayAsString then [] else map (fun y => (e, ca, false, y)) vs
        | TMap kt et, VMap es => if key_ok H kt then map (fun e => (et, false, false, snd e)) es else []
        | TStruct _, VStruct vs =>
          match structFields H n t with
          | Some fs => flat_map (fun f =>
              match vget (f_index f) v, type_by_index H t (f_index f) with
              | Some (Some y), Some ft =>
                if isDeniedField o (f_name f) || (f_omitNil f && vnil y) || (f_omitEmpty f && vempty y) || drops_nullb f ft then [] else [(ft, ca, quoted H f ft, y)]
              | _, _ => []
              end) fs
          | None => []
          end
        | _, _ => []
        end
      else []
    end.

  Lemma kids_ok n x y : In y (kids n x) -> inner_child H o x y.
  Proof.
    destruct x as [[[t ca] q] v]. intros Hi.
    assert (D : (exists es, t = TSyncMap /\ v = VSync es /\ In y (flat_map (fun e => match snd e with VIface vt y => [(vt, is_ptr H vt, false, y)] | _ => [] end) es)) \/
      plainb t ca = true /\ In y (match under E t, v with
        | TPtr e, VPtr y => [(e, true, q, y)]
        | TIface None, VIface td y => [(td, is_ptr H td, false, y)]
        | TSlice e, VSlice vs => if byte_elem H e then [] else map (fun y => (e, true, false, y)) vs
        | TArray _ e, VArr vs => if byte_elem H e && opt byteArrayAsString then [] else map (fun y => (e, ca, false, y)) vs
        | TMap kt et, VMap es => if key_ok H kt then map (fun e => (et, false, false, snd e)) es else []
        | TStruct _, VStruct vs =>
          match structFields H n t with
          | Some fs => flat_map (fun f =>
              match vget (f_index f) v, type_by_index H t (f_index f) with
              | Some (Some y), Some ft =>
                if isDeniedField o (f_name f) || (f_omitNil f && vnil y) || (f_omitEmpty f && vempty y) || drops_nullb f ft then [] else [(ft, ca, quoted H f ft, y)]
              | _, _ => []
              end) fs
          | None => []
          end
        | _, _ => []
        end)).
    { unfold kids in Hi. destruct t, v; try (left; eexists; split; [reflexivity | split; [reflexivity | exact Hi]]); right; (match type of Hi with In _ (if ?b then _ else _) => destruct b; [split; [reflexivity | exact Hi] | destruct Hi] end). }
    clear Hi. destruct D as [(es & -> & -> & Hi)|(Hp & Hi)].
    - apply in_flat_map in Hi. destruct Hi as ([k z] & Hi & Hz). cbn [snd] in Hz. destruct z; try destruct Hz as [<-|[]]; try destruct Hz. eapply ic_sval. exact Hi.
    - apply plainb_ok in Hp. destruct (under E t) as [ |ik|fb| | | | | |ms|e|e|an e|kt et|fs|nn| | | | | ] eqn:Eu; try destruct Hi; destruct v; try destruct ms; try destruct Hi.
      + subst y. eapply ic_iface; eauto.
      + destruct H0.
      + subst y. eapply ic_ptr; eauto.
      + destruct H0.
      + destruct (byte_elem H e) eqn:Eb; [destruct Hi|]. apply in_map_iff in Hi. destruct Hi as (z & <- & Hz). eapply ic_slice; eauto.
      + destruct (byte_elem H e && opt byteArrayAsString) eqn:Eb; [destruct Hi|]. apply in_map_iff in Hi. destruct Hi as (z & <- & Hz). eapply ic_array; eauto.
      + destruct (key_ok H kt) eqn:Ek; [|destruct Hi]. apply in_map_iff in Hi. destruct Hi as ([k z] & <- & Hz). eapply ic_elem; eauto.
      + destruct (structFields H n t) as [fs'|] eqn:Es; [|destruct Hi]. apply in_flat_map in Hi. destruct Hi as (f & Hf & Hi).
        destruct (vget (f_index f) (VStruct vs)) as [[z|]|] eqn:Ev; try (destruct Hi; fail). destruct (type_by_index H t (f_index f)) as [ft|] eqn:Et; [|destruct Hi].
        destruct (isDeniedField o (f_name f)) eqn:Ed; [destruct Hi|]. destruct (f_omitNil f && vnil z) eqn:E1; [destruct Hi|]. destruct (f_omitEmpty f && vempty z) eqn:E2; [destruct Hi|].
        destruct (drops_nullb f ft) eqn:E3; [destruct Hi|]. destruct Hi as [<-|[]]. eapply ic_field; eauto.
        * split; [rewrite <- isDeniedField_spec, Ed; discriminate|]. split; [split; assumption|]. rewrite <- dropped_spec, E1, E2. discriminate.
        * intros (A & B). unfold drops_nullb in E3. rewrite A in E3. cbn [andb] in E3. destruct B as [B|B]; rewrite B in E3; [discriminate | rewrite orb_true_r in E3; discriminate].
  Qed.

  (** The node reached by taking the i-th inner child at each step. *)
  Fixpoint walk (n : nat) (path : list nat) (x : node) : option node :=
    match path with
    | [] => Some x
    | i :: path' => match nth_error (kids n x) i with Some y => walk n path' y | None => None end
    end.
  Lemma walk_ok n path : forall x y, walk n path x = Some y -> inner H o x y.
  Proof.
    induction path as [|i path IH]; intros x y Hw; cbn [walk] in Hw; [injection Hw as ->; constructor|]. destruct (nth_error (kids n x) i) as [z|] eqn:Ei; [|discriminate].
    eapply inner_step; [eapply kids_ok, nth_error_In, Ei | apply IH, Hw].
  Qed.
End Kids.
