(** Reasoning about one goroutine of ConcModel.v: a program is good when it
    ends with the wanted result whatever the others do to the caches and the
    pools. *)
From Coq Require Import Permutation.
From Verif Require Import Base IntModel JsonSpec OptionsModel EscapeModel TypesModel TypesFacts TagsModel TimeModel FloatModel LeafModel Base64Model MemModel FieldsModel InstrModel ExecModel ExecMono ConcModel.

Definition key : Type := typ * bool.
Definition keys : Type := key -> Prop.
Definition kincl (W W' : keys) : Prop := forall k, W k -> W' k.
Definition kadd (W : keys) (k0 : key) : keys := fun k => W k \/ k = k0.
Lemma kincl_refl W : kincl W W. Proof. intros k Hk. exact Hk. Qed.
Lemma kincl_trans W1 W2 W3 : kincl W1 W2 -> kincl W2 W3 -> kincl W1 W3. Proof. intros A B k Hk. apply B, A, Hk. Qed.
Lemma kincl_add W k : kincl W (kadd W k). Proof. intros x Hx. left. exact Hx. Qed.
#[global] Hint Resolve kincl_refl kincl_add : core.

Lemma typ_eqb_refl t : typ_eqb t t = true.
Proof. apply typ_eqb_eq. reflexivity. Qed.
Lemma key_eqb_eq k k' : key_eqb k k' = true <-> k = k'.
Proof.
  destruct k as [t b], k' as [t' b']. unfold key_eqb. cbn [fst snd]. rewrite andb_true_iff, typ_eqb_eq, Bool.eqb_true_iff. split; [intros [-> ->]; reflexivity | intros [= -> ->]; auto].
Qed.
Lemma lookup_key_cons {X} k x (l : list (typ * bool * X)) k' : lookup_key ((k, x) :: l) k' = if key_eqb k' k then Some x else lookup_key l k'.
Proof. unfold lookup_key. cbn [find fst]. destruct (key_eqb k' k); reflexivity. Qed.
Lemma lookup_typ_cons {X} t (x : X) l t' : lookup_typ ((t, x) :: l) t' = if typ_eqb t' t then Some x else lookup_typ l t'.
Proof. unfold lookup_typ. cbn [find fst]. destruct (typ_eqb t' t); reflexivity. Qed.

(** The arrays a goroutine may use, with their contents. *)
Definition lheap : Type := nat -> option bytes.
Definition lset (L : lheap) (a : nat) (c : bytes) : lheap := fun a' => if (a' =? a)%nat then Some c else L a'.
Definition ldel (L : lheap) (a : nat) : lheap := fun a' => if (a' =? a)%nat then None else L a'.
Definition lnone : lheap := fun _ => None.
Lemma lset_same L a c : lset L a c a = Some c. Proof. unfold lset. rewrite Nat.eqb_refl. reflexivity. Qed.
Lemma lset_other L a c a' : a' <> a -> lset L a c a' = L a'. Proof. unfold lset. destruct (Nat.eqb_spec a' a); congruence. Qed.
Lemma ldel_same L a : ldel L a a = None. Proof. unfold ldel. rewrite Nat.eqb_refl. reflexivity. Qed.
Lemma ldel_other L a a' : a' <> a -> ldel L a a' = L a'. Proof. unfold ldel. destruct (Nat.eqb_spec a' a); congruence. Qed.

(** An open placeholder, and whether its instruction has been set. *)
Definition hold : Type := key * bool.

Section Logic.
  Variable H : host.

  (** ** What a closure stands for *)
  Definition leaf (i : instr) : Prop :=
    match i with
    | IBool | IString | IQString | IInt _ | IFloat _ | IIface | INumber | IRaw | ITime | IDuration | ISyncMap | IUnsupp _ | IMarshaler _ _ _ | IByteSlice => True
    | _ => False
    end.
  Definition meta_of (f : sfield) : cmeta := mkCM (sf_name f) (sf_seq f) (sf_omitNil f) (sf_omitNull f) (sf_empty f).

  (** [W]: the keys in the struct cache. *)
  Fixpoint den (W : keys) (c : clos) (i : instr) {struct c} : Prop :=
    match c with
    | KLeaf j => i = j /\ leaf j
    | KPtr c => match i with IPtr i => den W c i | _ => False end
    | KArray c es n ba => match i with IArray i es' n' ba' => es' = es /\ n' = n /\ ba' = ba /\ den W c i | _ => False end
    | KSlice c es => match i with ISlice i es' => es' = es /\ den W c i | _ => False end
    | KMap kc vc => match i with IMap ki vi => den W kc ki /\ den W vc vi | _ => False end
    | KInline c => match i with IInline i => den W c i | _ => False end
    | KQuoted c => match i with IQuoted i => den W c i | _ => False end
    | KNilText c => match i with INilText i => den W c i | _ => False end
    | KStruct fs =>
      match i with
      | IStruct t ca =>
        exists n sfs, struct_body H n t ca = Some sfs /\
          (fix go (fs : list (cmeta * clos)) (sfs : list sfield) : Prop :=
             match fs, sfs with
             | [], [] => True
             | (f, c) :: fs, sf :: sfs => f = meta_of sf /\ den W c (sf_instr sf) /\ go fs sfs
             | _, _ => False
             end) fs sfs
      | _ => False
      end
    | KWait t ca => i = IStruct t ca /\ W (t, ca)
    end.
  Definition den_fields (W : keys) : list (cmeta * clos) -> list sfield -> Prop :=
    fix go (fs : list (cmeta * clos)) (sfs : list sfield) : Prop :=
      match fs, sfs with
      | [], [] => True
      | (f, c) :: fs, sf :: sfs => f = meta_of sf /\ den W c (sf_instr sf) /\ go fs sfs
      | _, _ => False
      end.
  Lemma den_struct W fs t ca : den W (KStruct fs) (IStruct t ca) <-> exists n sfs, struct_body H n t ca = Some sfs /\ den_fields W fs sfs.
  Proof. reflexivity. Qed.

  Lemma den_mono W W' : kincl W W' -> forall c i, den W c i -> den W' c i.
  Proof.
    intros HW. fix IH 1. intros c i. destruct c as [j|c|c es n ba|c es|kc vc|c|c|c|fs|t ca].
    - exact (fun x => x).
    - destruct i; try exact (fun x => x). cbn [den]. apply IH.
    - destruct i; try exact (fun x => x). cbn [den]. intros (A & B & C & D). repeat split; auto.
    - destruct i; try exact (fun x => x). cbn [den]. intros (A & B). split; auto.
    - destruct i; try exact (fun x => x). cbn [den]. intros (A & B). split; auto.
    - destruct i; try exact (fun x => x). cbn [den]. apply IH.
    - destruct i; try exact (fun x => x). cbn [den]. apply IH.
    - destruct i; try exact (fun x => x). cbn [den]. apply IH.
    - destruct i as [ | | | | | | | | | | | | | |t ca| | | | | | | ]; try exact (fun x => x). rewrite !den_struct. intros (n & sfs & A & B). exists n, sfs. split; [exact A|]. clear A. revert sfs B.
      induction fs as [|[f c] fs IHf]; intros [|sf sfs]; cbn [den_fields]; try exact (fun x => x). intros (B1 & B2 & B3). repeat split; auto.
    - cbn [den]. intros (A & B). split; auto.
  Qed.
  Lemma den_fields_mono W W' fs sfs : kincl W W' -> den_fields W fs sfs -> den_fields W' fs sfs.
  Proof.
    intros HW. revert sfs. induction fs as [|[f c] fs IH]; intros [|sf sfs]; cbn [den_fields]; auto. intros (A & B & C). repeat split; auto. eapply den_mono; eauto.
  Qed.

  (** ** One step of a goroutine as it sees it *)
  Definition owned (L : lheap) (s : slice) : Prop := exists c, L (s_arr s) = Some c /\ (s_len s <= length c)%nat.
  (** The bytes of a slice. *)
  Definition holds (L : lheap) (s : slice) (b : bytes) : Prop := s_len s = length b /\ exists r, L (s_arr s) = Some (b ++ r).
  Definition cache_ok (W : keys) (c : list (typ * clos)) : Prop :=
    forall t i, lookup_typ c t = Some i -> exists n j, cached_instr H n t = Some j /\ den W i j.
  Definition fields_ok (t : typ) (fs : list field) : Prop := exists n, structFields H n t = Some fs.
  Definition lread (L : lheap) (r : sub) : bytes := read_sub (fun a => match L a with Some c => c | None => [] end) r.
  Definition lread_kv (L : lheap) (kv : kvsub) : bytes * bytes := (lread L (fst kv), lread L (snd kv)).
  Definition readable (L : lheap) (r : sub) : Prop := L (r_arr r) <> None.

  Definition safe (W : keys) (own : list hold) (L : lheap) (o : op) : Prop :=
    match o with
    | OAppend s _ | OCap s | ORead s | OSpoil s | OUser s _ | OPutBuf s => owned L s
    | OAppendSub s r => owned L s /\ readable L r
    | OCopy d s => owned L d /\ owned L s
    | OWrite s i b => owned L s /\ (i + length b <= s_len s)%nat
    | OPieces _ | OMake _ | OGetBuf | OGetMel | OGetIter | OPutIter _ | OLoadCache | OLoadStruct _ _ | OLoadFields _ | OLoadEmpty _ => True
    | OPutMel l => l = []
    | OSort l => Forall (fun kv => readable L (fst kv) /\ readable L (snd kv)) l
    | OStoreCache c => cache_ok W c
    | OLoadOrStoreStruct t ca => True
    | OSetIns t ca fs => (exists f own', own = ((t, ca), f) :: own') /\ den W (KStruct fs) (IStruct t ca)
    | ODone t ca => exists own', own = ((t, ca), true) :: own'
    | OStoreStruct t ca c => W (t, ca) /\ den W c (IStruct t ca)
    | OWait t ca => W (t, ca) /\ own = []
    | OLoadOrStoreFields t fs => fields_ok t fs
    | OLoadOrStoreEmpty t e => e = t
    | OStructFields t => exists fs, fields_ok t fs
    | OInlined t => exists n b, isInlined H n t = Some b
    end.

  Inductive lappend (L : lheap) (s : slice) (b : bytes) : lheap -> slice -> Prop :=
  | la_fits c : L (s_arr s) = Some c -> (s_len s + length b <= length c)%nat ->
      lappend L s b (lset L (s_arr s) (overwrite c (s_len s) b)) (mkSl (s_arr s) (s_len s + length b))
  | la_grow c a junk : L (s_arr s) = Some c -> L a = None -> lappend L s b (lset L a (firstn (s_len s) c ++ b ++ junk)) (mkSl a (s_len s + length b)).

  Inductive astep (W : keys) (own : list hold) (L : lheap) : op -> keys -> list hold -> lheap -> answer -> Prop :=
  | a_append s b L' s' : lappend L s b L' s' -> astep W own L (OAppend s b) W own L' (ASlice s')
  | a_append_sub s r L' s' : lappend L s (lread L r) L' s' -> astep W own L (OAppendSub s r) W own L' (ASlice s')
  | a_make n a : L a = None -> astep W own L (OMake n) W own (lset L a (repeat 0 n)) (ASlice (mkSl a n))
  | a_copy d s cd cs : L (s_arr d) = Some cd -> L (s_arr s) = Some cs ->
      astep W own L (OCopy d s) W own (lset L (s_arr d) (overwrite cd 0 (firstn (Nat.min (s_len d) (s_len s)) cs))) AUnit
  | a_write s i b c : L (s_arr s) = Some c -> astep W own L (OWrite s i b) W own (lset L (s_arr s) (overwrite c i b)) AUnit
  | a_cap s c : L (s_arr s) = Some c -> astep W own L (OCap s) W own L (ANat (length c))
  | a_read s c : L (s_arr s) = Some c -> astep W own L (ORead s) W own L (ABytes (firstn (s_len s) c))
  | a_spoil s c junk : L (s_arr s) = Some c -> length c = (s_len s + length junk)%nat ->
      astep W own L (OSpoil s) W own (lset L (s_arr s) (firstn (s_len s) c ++ junk)) AUnit
  | a_user_in s b c junk : L (s_arr s) = Some c -> length c = (s_len s + length b + length junk)%nat ->
      astep W own L (OUser s b) W own (lset L (s_arr s) (firstn (s_len s) c ++ b ++ junk)) (ASlice (mkSl (s_arr s) (s_len s + length b)))
  | a_user_new s b c a junk junk' : L (s_arr s) = Some c -> length c = (s_len s + length junk)%nat -> L a = None ->
      astep W own L (OUser s b) W own (lset (lset L (s_arr s) (firstn (s_len s) c ++ junk)) a (firstn (s_len s) c ++ b ++ junk')) (ASlice (mkSl a (s_len s + length b)))
  | a_pieces b l : concat l = b -> astep W own L (OPieces b) W own L (APieces l)
  | a_get_none : astep W own L OGetBuf W own L (ASliceOpt None)
  | a_get_some s c : L (s_arr s) = None -> (s_len s <= length c)%nat -> astep W own L OGetBuf W own (lset L (s_arr s) c) (ASliceOpt (Some s))
  | a_put s : astep W own L (OPutBuf s) W own (ldel L (s_arr s)) AUnit
  | a_mel_none : astep W own L OGetMel W own L (AMelOpt None)
  | a_mel_some : astep W own L OGetMel W own L (AMelOpt (Some []))
  | a_mel_put l : astep W own L (OPutMel l) W own L AUnit
  | a_iter it : astep W own L OGetIter W own L (AIterOpt it)
  | a_iter_put it : astep W own L (OPutIter it) W own L AUnit
  | a_sort l l' : Permutation l l' -> map (lread_kv L) l' = h_sort H (map (lread_kv L) l) -> astep W own L (OSort l) W own L (AMel l')
  | a_load_cache c : cache_ok W c -> astep W own L OLoadCache W own L (ACache c)
  | a_store_cache c : astep W own L (OStoreCache c) W own L AUnit
  | a_load_some t ca c : W (t, ca) -> den W c (IStruct t ca) -> astep W own L (OLoadStruct t ca) W own L (AClosOpt (Some c))
  | a_load_none t ca : astep W own L (OLoadStruct t ca) W own L (AClosOpt None)
  | a_los_some t ca c : W (t, ca) -> den W c (IStruct t ca) -> astep W own L (OLoadOrStoreStruct t ca) W own L (AClosOpt (Some c))
  | a_los_none t ca : ~ W (t, ca) -> astep W own L (OLoadOrStoreStruct t ca) (kadd W (t, ca)) (((t, ca), false) :: own) L (AClosOpt None)
  | a_set_ins t ca fs f own' : own = ((t, ca), f) :: own' -> astep W own L (OSetIns t ca fs) W (((t, ca), true) :: own') L AUnit
  | a_done t ca own' : own = ((t, ca), true) :: own' -> astep W own L (ODone t ca) W own' L AUnit
  | a_store_struct t ca c : astep W own L (OStoreStruct t ca c) W own L AUnit
  | a_wait t ca fs : den W (KStruct fs) (IStruct t ca) -> astep W own L (OWait t ca) W own L (AIns fs)
  | a_fields_some t fs : fields_ok t fs -> astep W own L (OLoadFields t) W own L (AFieldsOpt (Some fs))
  | a_fields_none t : astep W own L (OLoadFields t) W own L (AFieldsOpt None)
  | a_losf t fs fs' : fields_ok t fs' -> astep W own L (OLoadOrStoreFields t fs) W own L (AFields fs')
  | a_empty_some t : astep W own L (OLoadEmpty t) W own L (ATypOpt (Some t))
  | a_empty_none t : astep W own L (OLoadEmpty t) W own L (ATypOpt None)
  | a_lose t e : astep W own L (OLoadOrStoreEmpty t e) W own L (ATyp t)
  | a_struct_fields t fs : fields_ok t fs -> astep W own L (OStructFields t) W own L (AFields fs)
  | a_inlined t n b : isInlined H n t = Some b -> astep W own L (OInlined t) W own L (ABool b).

  Definition post (A : Type) : Type := option A -> keys -> list hold -> lheap -> Prop.

  (** [None] is a panic. *)
  Inductive good {A} (Q : post A) : keys -> list hold -> lheap -> prog A -> Prop :=
  | good_ret W own L x : Q (Some x) W own L -> good Q W own L (PRet x)
  | good_panic W own L : Q None W own L -> good Q W own L PPanic
  | good_op W own L o k : safe W own L o ->
      (forall W1 W' own' L' x, kincl W W1 -> astep W1 own L o W' own' L' x -> good Q W' own' L' (k x)) -> good Q W own L (POp o k)
  | good_build W own L t ca q k : good Q W own L (pbind (build_body H t ca q) k) -> good Q W own L (PBuild t ca q k)
  | good_run W own L o m c p s k : good Q W own L (pbind (run_body H o m c p s) k) -> good Q W own L (PRun o m c p s k).

  (** Equality of programs, without extensionality. *)
  Inductive peq {A} : prog A -> prog A -> Prop :=
  | peq_ret x : peq (PRet x) (PRet x)
  | peq_panic : peq PPanic PPanic
  | peq_op o k k' : (forall x, peq (k x) (k' x)) -> peq (POp o k) (POp o k')
  | peq_build t ca q k k' : (forall x, peq (k x) (k' x)) -> peq (PBuild t ca q k) (PBuild t ca q k')
  | peq_run o m c p s k k' : (forall x, peq (k x) (k' x)) -> peq (PRun o m c p s k) (PRun o m c p s k').
  Lemma peq_refl {A} (p : prog A) : peq p p.
  Proof. induction p; constructor; auto. Qed.
  Lemma peq_sym {A} (p p' : prog A) : peq p p' -> peq p' p.
  Proof. induction 1; constructor; auto. Qed.
  Lemma peq_bind {A B} (p p' : prog A) (f f' : A -> prog B) : peq p p' -> (forall x, peq (f x) (f' x)) -> peq (pbind p f) (pbind p' f').
  Proof. intros Hp Hf. induction Hp; cbn [pbind]; auto; constructor; auto. Qed.
  Lemma peq_assoc {A B C} (p : prog A) (f : A -> prog B) (g : B -> prog C) : peq (pbind (pbind p f) g) (pbind p (fun x => pbind (f x) g)).
  Proof. induction p; cbn [pbind]; try (constructor; auto). apply peq_refl. Qed.

  Lemma good_peq {A} (Q : post A) W own L p : good Q W own L p -> forall p', peq p p' -> good Q W own L p'.
  Proof.
    induction 1 as [W own L x HQ|W own L HQ|W own L o k Hs Hk IH|W own L t ca q k Hk IH|W own L o m c p s k Hk IH]; intros p' Hp; inversion Hp; subst.
    - constructor. exact HQ.
    - constructor. exact HQ.
    - constructor; eauto.
    - constructor. apply IH. apply peq_bind; [apply peq_refl | assumption].
    - constructor. apply IH. apply peq_bind; [apply peq_refl | assumption].
  Qed.

  Lemma good_bind {A B} (Q1 : post A) (Q2 : post B) W own L p (f : A -> prog B) : good Q1 W own L p ->
    (forall x W' own' L', Q1 (Some x) W' own' L' -> good Q2 W' own' L' (f x)) ->
    (forall W' own' L', Q1 None W' own' L' -> Q2 None W' own' L') ->
    good Q2 W own L (pbind p f).
  Proof.
    intros Hg H1 H2. induction Hg as [W own L x HQ|W own L HQ|W own L o k Hs Hk IH|W own L t ca q k Hk IH|W own L o m c p s k Hk IH]; cbn [pbind].
    - auto.
    - constructor. auto.
    - constructor; eauto.
    - constructor. eapply good_peq; [exact IH | apply peq_assoc].
    - constructor. eapply good_peq; [exact IH | apply peq_assoc].
  Qed.

  Lemma good_conseq {A} (Q Q' : post A) W own L p : good Q W own L p -> (forall x W own L, Q x W own L -> Q' x W own L) -> good Q' W own L p.
  Proof. intros Hg HQ. induction Hg; constructor; eauto. Qed.

  (** Goodness does not depend on what the others add to the cache. *)
  Lemma safe_mono W W' own L o : kincl W W' -> safe W own L o -> safe W' own L o.
  Proof.
    intros HW. destruct o; cbn [safe]; auto.
    - intros Hc t i Hl. destruct (Hc t i Hl) as (n & j & A & B). exists n, j. split; [exact A | eapply den_mono; eauto].
    - intros [A B]. split; [exact A | eapply (den_mono W W' HW (KStruct _)); eauto].
    - intros [A B]. split; [auto | eapply den_mono; eauto].
    - intros [A B]. auto.
  Qed.
  Definition qmono {A} (Q : post A) : Prop := forall x W W' own L, kincl W W' -> Q x W own L -> Q x W' own L.
  Lemma good_mono {A} (Q : post A) W own L p : qmono Q -> good Q W own L p -> forall W', kincl W W' -> good Q W' own L p.
  Proof.
    intros HQ. induction 1 as [W own L x HQx|W own L HQx|W own L o k Hs Hk IH|W own L t ca q k Hk IH|W own L o m c p s k Hk IH]; intros W' HW.
    - constructor. eapply HQ; eauto.
    - constructor. eapply HQ; eauto.
    - constructor; [eapply safe_mono; eauto|]. intros W1 W2 own' L' x HW1 Ha. eapply Hk; [|exact Ha]. eapply kincl_trans; eauto.
    - constructor. auto.
    - constructor. auto.
  Qed.
End Logic.
