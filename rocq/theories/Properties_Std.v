(** C58: the text encoding/json gives, byte for byte. *)
From Coq Require Import Permutation Sorted.
From Verif Require Import Base Utf8 JsonSpec OptionsModel EscapeModel EscapeProof NumberModel NumberProof JsonParse IntModel IntProof TypesModel TypesFacts CompactModel CompactProof TagsModel TagsProof FloatModel FloatProof FloatShort Base64Model Base64Proof LeafModel LeafProof TimeModel CalendarSpec TimeProof CompactText
  MemModel FieldsSpec FieldsModel FieldsProof FieldsThm InstrModel ExecModel ValueModel ExecProof HostFacts VencFacts MarshalThm DocSpec EntriesFacts DocLeaf PartFacts DocProof SafeProof ApiFacts PartsThm ShapeThm CallFacts ShuffleThm OrderThm MethodsThm
  ExampleHost ExampleVals ExampleConst ExampleRead Properties_Options Properties_Marshalers Properties_Fields Properties_Strings Properties_Numbers Properties_Members Properties_Maps Properties_Floats Properties_Bytes Properties_Lossless Properties_Order Properties_Text Properties_FloatText Properties_Time TimeText.

(** ** Strings *)
(** The text of s between the quotation marks. *)
Definition escape_text (html : bool) (s y : bytes) : Prop := exists segs, segments s segs /\ string_text html true segs y.
Definition string_json (html : bool) (s x : bytes) : Prop := exists y, escape_text html s y /\ x = lit """" ++ y ++ lit """".

Lemma escape_text_det html s y y' : escape_text html s y -> escape_text html s y' -> y = y'.
Proof. intros (segs & S & T) (segs' & S' & T'). rewrite (segments_det _ _ _ S' S) in T'. eapply string_text_det; eauto. Qed.
Lemma string_json_det html s x x' : string_json html s x -> string_json html s x' -> x = x'.
Proof. intros (y & Y & ->) (y' & Y' & ->). rewrite (escape_text_det _ _ _ _ Y Y'). reflexivity. Qed.

Lemma esc_segs_text ne segs : Forall (fun u => match u with inl r => scalar r | inr _ => True end) segs -> string_text (negb ne) true segs (flat_map (esc_seg false ne) segs).
Proof.
  induction 1 as [|u us Hu _ IH]; cbn [flat_map]; constructor; [|exact IH]. apply (char_text_ok false ne). intros r ->. unfold scalar in Hu. lia.
Qed.
Lemma segs_scalar s segs : segments s segs -> Forall (fun u => match u with inl r => scalar r | inr _ => True end) segs.
Proof. induction 1; constructor; auto. Qed.

(** ** The text of a value *)
(** Strictly before, in the order of the bytes. *)
Definition lexlt (a b : bytes) : Prop := lexle a b /\ a <> b.

Definition object_of (ms : list bytes) : bytes := lit "{" ++ commas ms ++ lit "}".
Definition array_of (xs : list bytes) : bytes := lit "[" ++ commas xs ++ lit "]".

(** The values omitempty leaves out. *)
Definition empty_value (v : val) : Prop :=
  v = VBool false \/ v = VInt 0 \/ (exists neg, v = VFloat (FZero neg)) \/ v = VStr [] \/ v = VNil \/ v = VSlice [] \/ v = VArr [] \/ v = VMap [].

(** The fields of a struct type, in order: those that Go's rule selects
    (Properties_Fields.selected), with the options of their tags.  The option
    string is for booleans, numbers and strings, and pointers to them. *)
Definition scalar_kind (H : host) (u : typ) : Prop :=
  exists e, FieldsSpec.deref u e /\ match under (h_env H) e with TBool | TInt _ | TFloat _ | TString => True | _ => False end.
Definition json_fields (H : host) (t : typ) (fs : list field) : Prop :=
  StronglySorted before (map f_index fs) /\
  (forall index name tagged, (exists f, In f fs /\ f_index f = index /\ f_name f = name /\ f_tag f = tagged) <-> selected H t index name tagged) /\
  (forall f, In f fs -> exists d u n opts, declared H t f d u n opts) /\
  (forall f d u n opts, In f fs -> declared H t f d u n opts ->
     (f_omitEmpty f = true <-> In (lit "omitempty") opts) /\ (f_quoted f = true <-> In (lit "string") opts /\ scalar_kind H u)).

Section Std.
  Variable H : host.
  Variable vcall : mkind -> typ -> val -> option Z -> bytes + Z.
  Variable html : bool.
  Notation E := (h_env H).
  Notation bare := (bare H).

  (** Which method encodes a value of type t; a: the value is addressable. *)
  Definition no_marshaler (t : typ) (a : bool) : Prop := native t = false /\ ~ available H t a MJson /\ ~ available H t a MText.
  Definition marshaler (t : typ) (a : bool) (k : mkind) : Prop := native t = false /\ available H t a k /\ (k = MJson \/ k = MText /\ ~ available H t a MJson).

  (** How the result of the method is written: JSON is compacted, text becomes
      a string. *)
  Inductive method_json : mkind -> bytes -> bytes -> Prop :=
  | mj_json r j out : bytes_ok r -> json_text true j r -> compact_text html r out -> method_json MJson r out
  | mj_text r out : string_json html r out -> method_json MText r out.

  Definition number_type (t : typ) (a : bool) : Prop :=
    t = TNumber \/ (no_marshaler t a \/ t = TDuration) /\ match under E t with TBool | TInt _ | TFloat _ => True | _ => False end.

  (** Map keys: strings, then the text of MarshalText, then integers in
      decimal. *)
  Definition text_key (kt : typ) : Prop := under E kt <> TString /\ native kt = false /\ h_impl H kt MText = true.
  Definition int_key (kt : typ) : Prop := (native kt = false /\ h_impl H kt MText = false \/ kt = TDuration) /\ exists k, under E kt = TInt k.
  Definition time_key (kt : typ) : Prop := kt = TTime /\ h_impl H kt MText = true.
  Definition key_type (kt : typ) : Prop := under E kt = TString \/ text_key kt \/ int_key kt \/ time_key kt.
  Inductive key_string (kt : typ) : val -> bytes -> Prop :=
  | ks_str s : under E kt = TString -> key_string kt (VStr s) s
  | ks_text k td w s : text_key kt -> receiver H kt false k td w -> vcall MText td w None = inl s -> key_string kt k s
  | ks_nil : text_key kt -> is_ptr H kt = true -> key_string kt VNil []
  | ks_int n l : int_key kt -> int_lit l n -> key_string kt (VInt n) l
  | ks_time g y s : time_key kt -> local_year g y -> 0 <= y <= 9999 -> time_text g true (lit """" ++ s ++ lit """") -> key_string kt (VTime g) s.

  (** A field without a member: behind a nil embedded pointer, or empty with
      omitempty. *)
  Definition left_out (t : typ) (v : val) (f : field) : Prop :=
    vget (f_index f) v = Some None \/ exists ft x, field_value H t v f ft x /\ f_omitEmpty f = true /\ empty_value x.

  (** [std t a q v out]: out is the text encoding/json writes for the value v
      of type t; a: the value is addressable; q: it is a field with the string
      option.  What a pointer points to and the elements of a slice are
      addressable, and so are fields promoted through an embedded pointer; the
      elements of a map and what an interface holds are not. *)
  Inductive std : typ -> bool -> bool -> val -> bytes -> Prop :=
  | S_true t a : no_marshaler t a -> under E t = TBool -> std t a false (VBool true) (lit "true")
  | S_false t a : no_marshaler t a -> under E t = TBool -> std t a false (VBool false) (lit "false")
  | S_int t a k n l : no_marshaler t a \/ t = TDuration -> under E t = TInt k -> int_lit l n -> std t a false (VInt n) l
  | S_float t a b f l : no_marshaler t a -> under E t = TFloat b -> float_spelled (h_shortest H) b f l -> std t a false (VFloat f) l
  | S_str t a s x : no_marshaler t a -> under E t = TString -> string_json html s x -> std t a false (VStr s) x
  | S_num a s : jnumber s -> std TNumber a false (VStr s) s
  | S_num_empty a : std TNumber a false (VStr []) (lit "0")
  | S_quoted t a v l : number_type t a -> std t a false v l -> std t a true v (lit """" ++ l ++ lit """")
  | S_quoted_str t a s x y : no_marshaler t a -> under E t = TString -> string_json html s x -> string_json html x y -> std t a true (VStr s) y
  | S_time a q g y out : local_year g y -> 0 <= y <= 9999 -> time_text g true out -> std TTime a q (VTime g) out
  | S_raw_nil a q : std TRawMessage a q VNil (lit "null")
  | S_raw a q vs b j out : vbytes vs = Some b -> bytes_ok b -> json_text true j b -> compact_text html b out -> std TRawMessage a q (VSlice vs) out
  | S_method t a q k v td w r out : marshaler t a k -> receiver H t (by_address H t k) v td w -> vcall k td w None = inl r -> method_json k r out -> std t a q v out
  | S_method_nil t a q k : marshaler t a k -> by_address H t k = false -> is_ptr H t = true \/ is_iface H t = true -> std t a q VNil (lit "null")
  | S_nil t a q : no_marshaler t a -> (exists e, under E t = TPtr e \/ under E t = TSlice e) \/ (exists ms, under E t = TIface ms) \/ (exists kt et, under E t = TMap kt et /\ key_type kt) ->
      std t a q VNil (lit "null")
  | S_ptr t a q e v x : no_marshaler t a -> under E t = TPtr e -> std e true q v x -> std t a q (VPtr v) x
  | S_iface t a q ms td v x : no_marshaler t a -> under E t = TIface ms -> std td false false v x -> std t a q (VIface td v) x
  | S_bytes t a q e vs b x : no_marshaler t a -> under E t = TSlice e -> bare e -> under E e = TInt KUint8 -> vbytes vs = Some b -> base64_text x b -> std t a q (VSlice vs) (lit """" ++ x ++ lit """")
  | S_slice t a q e vs xs : no_marshaler t a -> under E t = TSlice e -> under E e <> TInt KUint8 -> std_elems e true vs xs -> std t a q (VSlice vs) (array_of xs)
  | S_array t a q n e vs xs : no_marshaler t a -> under E t = TArray n e -> std_elems e a vs xs -> std t a q (VArr vs) (array_of xs)
  | S_map t a q kt et es es' ks ms : no_marshaler t a -> under E t = TMap kt et -> key_type kt -> Permutation es es' -> std_entries kt et es' ks ms -> StronglySorted lexlt ks ->
      std t a q (VMap es) (object_of ms)
  | S_struct t a q fs0 fs vs ms : no_marshaler t a -> under E t = TStruct fs0 -> json_fields H t fs -> std_fields t a (VStruct vs) fs ms -> std t a q (VStruct vs) (object_of ms)
  with std_elems : typ -> bool -> list val -> list bytes -> Prop :=
  | SE_nil e a : std_elems e a [] []
  | SE_cons e a v x vs xs : std e a false v x -> std_elems e a vs xs -> std_elems e a (v :: vs) (x :: xs)
  with std_entries : typ -> typ -> list (val * val) -> list bytes -> list bytes -> Prop :=
  | SM_nil kt et : std_entries kt et [] [] []
  | SM_cons kt et k s n v x es ks ms : key_string kt k s -> string_json html s n -> std et false false v x -> std_entries kt et es ks ms ->
      std_entries kt et ((k, v) :: es) (s :: ks) ((n ++ lit ":" ++ x) :: ms)
  with std_fields : typ -> bool -> val -> list field -> list bytes -> Prop :=
  | SF_nil t a v : std_fields t a v [] []
  | SF_out t a v f fs ms : left_out t v f -> std_fields t a v fs ms -> std_fields t a v (f :: fs) ms
  | SF_show t a v f ft fa x n b fs ms : field_value H t v f ft x -> ~ left_out t v f -> string_json html (f_name f) n ->
      (through_pointer H t f -> fa = true) -> (~ through_pointer H t f -> fa = a) -> std ft fa (quoted H f ft) x b -> std_fields t a v fs ms ->
      std_fields t a v (f :: fs) ((n ++ lit ":" ++ b) :: ms).

  Scheme std_i := Minimality for std Sort Prop
    with std_elems_i := Minimality for std_elems Sort Prop
    with std_entries_i := Minimality for std_entries Sort Prop
    with std_fields_i := Minimality for std_fields Sort Prop.
  Combined Scheme std_mut from std_i, std_elems_i, std_entries_i, std_fields_i.
End Std.

(** ** There is at most one such text *)
Lemma sorted_perm_unique {A} (K : A -> bytes -> Prop) : (forall a s s', K a s -> K a s' -> s = s') -> forall l l' ks ks', Forall2 K l ks -> Forall2 K l' ks' ->
  StronglySorted lexlt ks -> StronglySorted lexlt ks' -> Permutation l l' -> l = l'.
Proof.
  intros Kf. assert (After : forall l s ks b s', Forall2 K l ks -> Forall (lexlt s) ks -> In b l -> K b s' -> lexlt s s').
  { intros l s ks b s' F. induction F as [|x y l ks Kx _ IH]; intros Fs Hi Kb; [destruct Hi|]. inversion Fs; subst. destruct Hi as [->|Hi]; [rewrite (Kf _ _ _ Kb Kx); assumption | auto]. }
  intros l. induction l as [|a l IH]; intros l' ks ks' F F' S S' P.
  - apply Permutation_nil in P. congruence.
  - destruct l' as [|b l']; [apply Permutation_sym, Permutation_nil in P; discriminate|].
    inversion F as [|? s ? ks1 Ka F1]; subst. inversion F' as [|? s' ? ks2 Kb F2]; subst. inversion S as [|? ? S1 Fs]; subst. inversion S' as [|? ? S2 Fs']; subst.
    assert (Ia : In a (b :: l')) by (eapply Permutation_in; [exact P | left; reflexivity]).
    assert (Ib : In b (a :: l)) by (eapply Permutation_in; [apply Permutation_sym, P | left; reflexivity]).
    assert (a = b).
    { destruct Ia as [->|Ia]; [reflexivity|]. destruct Ib as [->|Ib]; [reflexivity|]. exfalso.
      destruct (After l s ks1 b s' F1 Fs Ib Kb) as [L1 N1]. destruct (After l' s' ks2 a s F2 Fs' Ia Ka) as [L2 N2]. apply N1. apply lexle_antisym; assumption. }
    subst b. f_equal. apply Permutation_cons_inv in P. eapply IH; eauto.
Qed.

Lemma text_key_only H kt : text_key H kt -> under (h_env H) kt <> TString /\ ~ int_key H kt /\ ~ time_key H kt.
Proof.
  intros (U & N & I). split; [exact U|]. split; [intros [[[_ X]| ->] _]; [congruence | discriminate] | intros [-> _]; discriminate].
Qed.
Lemma key_string_det H vcall kt k s s' : key_string H vcall kt k s -> key_string H vcall kt k s' -> s = s'.
Proof.
  intros A B. destruct A as [s U|k td w s T R V|T P|n l I L|g y s T Y Yr Tt]; inversion B as [? U'|? td' w' ? T' R' V'|T' P'|? ? I' L'|? ? ? T' Y' Yr' Tt']; subst;
    try reflexivity; try (exfalso; match goal with T : text_key H kt |- _ => destruct (text_key_only H kt T) as (? & ? & ?); contradiction end).
  - destruct (receiver_det H _ _ _ _ _ _ _ R R') as [<- <-]. congruence.
  - exfalso. eapply nil_no_receiver; eauto.
  - exfalso. eapply nil_no_receiver; eauto.
  - eapply C09_literal_unique; eauto.
  - assert (X := time_text_fun _ _ _ _ Tt Tt'). apply app_inv_head in X. apply app_inv_tail in X. exact X.
Qed.
Lemma entries_keys H vcall html kt et es ks ms : std_entries H vcall html kt et es ks ms -> Forall2 (fun e s => key_string H vcall kt (fst e) s) es ks.
Proof. revert kt et es ks ms. fix IH 6. intros kt et es ks ms S. destruct S; constructor; [assumption | eapply IH; eassumption]. Qed.

Lemma base64_text_fun x x' b : base64_text x b -> base64_text x' b -> x = x'.
Proof.
  assert (D : forall c c' d, b64_digit c d -> b64_digit c' d -> c = c') by (intros c c' d A B; inversion A; inversion B; subst; lia).
  assert (R : forall c d, b64_digit c d -> 0 <= d < 64) by (intros c d A; inversion A; lia).
  intros A. revert x'. induction A as [|c1 c2 c3 c4 d1 d2 d3 d4 x y z s b X1 X2 X3 X4 _ _ _ Eq _ IH|c1 c2 c3 d1 d2 d3 x y X1 X2 X3 _ _ Eq|c1 c2 d1 d2 x X1 X2 _ Eq]; intros x' B.
  - inversion B. reflexivity.
  - inversion B as [|e1 e2 e3 e4 f1 f2 f3 f4 ? ? ? ? ? Y1 Y2 Y3 Y4 _ _ _ Eq'| |]; subst.
    apply IH in H6 || idtac. assert (R1 := R _ _ X1). assert (R2 := R _ _ X2). assert (R3 := R _ _ X3). assert (R4 := R _ _ X4). assert (Q1 := R _ _ Y1). assert (Q2 := R _ _ Y2). assert (Q3 := R _ _ Y3). assert (Q4 := R _ _ Y4).
    assert (f1 = d1) by lia. assert (f2 = d2) by lia. assert (f3 = d3) by lia. assert (f4 = d4) by lia. subst.
    rewrite (D _ _ _ X1 Y1), (D _ _ _ X2 Y2), (D _ _ _ X3 Y3), (D _ _ _ X4 Y4). repeat f_equal. apply IH. assumption.
  - inversion B as [| |e1 e2 e3 f1 f2 f3 ? ? Y1 Y2 Y3 _ _ Eq'|]; subst. assert (R1 := R _ _ X1). assert (R2 := R _ _ X2). assert (R3 := R _ _ X3). assert (Q1 := R _ _ Y1). assert (Q2 := R _ _ Y2). assert (Q3 := R _ _ Y3).
    assert (f1 = d1) by lia. assert (f2 = d2) by lia. assert (f3 = d3) by lia. subst. rewrite (D _ _ _ X1 Y1), (D _ _ _ X2 Y2), (D _ _ _ X3 Y3). reflexivity.
  - inversion B as [| | |e1 e2 f1 f2 ? Y1 Y2 _ Eq']; subst. assert (R1 := R _ _ X1). assert (R2 := R _ _ X2). assert (Q1 := R _ _ Y1). assert (Q2 := R _ _ Y2).
    assert (f1 = d1) by lia. assert (f2 = d2) by lia. subst. rewrite (D _ _ _ X1 Y1), (D _ _ _ X2 Y2). reflexivity.
Qed.

Lemma jnumber_nonempty : ~ jnumber [].
Proof. intros J. apply jnumber_head in J. destruct J as (c & t & E & _). discriminate. Qed.

Lemma field_value_det H t v f ft x ft' x' : field_value H t v f ft x -> field_value H t v f ft' x' -> ft = ft' /\ x = x'.
Proof. intros [A B] [C D]. split; congruence. Qed.
Lemma marshaler_det H t a k k' : marshaler H t a k -> marshaler H t a k' -> k = k'.
Proof. intros (_ & A & [-> |[-> B]]) (_ & A' & [-> |[-> B']]); try reflexivity; contradiction. Qed.
Lemma no_marshaler_not H t a k : no_marshaler H t a -> ~ marshaler H t a k.
Proof. intros (_ & A & B) (_ & C & [-> |[-> _]]); contradiction. Qed.
Lemma number_no_marshaler H t a k : number_type H t a -> ~ marshaler H t a k.
Proof. intros [-> |[[N| ->] _]] M; [destruct M; discriminate | eapply no_marshaler_not; eauto | destruct M; discriminate]. Qed.
Lemma number_under H t a : number_type H t a -> no_marshaler H t a -> match under (h_env H) t with TBool | TInt _ | TFloat _ => True | _ => False end.
Proof. intros [->|[_ N]] Bt; [destruct Bt; discriminate | exact N]. Qed.
Lemma method_json_det html k r x x' : method_json html k r x -> method_json html k r x' -> x = x'.
Proof.
  intros A B. destruct A as [r j x Hb Hj C|r x C]; inversion B as [? ? ? _ _ C'|? ? C']; subst; [eapply compact_text_det; eauto | eapply string_json_det; eauto].
Qed.

Ltac clash :=
  exfalso; first
  [ match goal with P : no_marshaler _ ?t _ |- _ => solve [destruct P as [P _]; discriminate P] end
  | match goal with P : marshaler _ ?t _ _ |- _ => solve [destruct P as [P _]; discriminate P] end
  | match goal with P : no_marshaler _ ?t ?a, M : marshaler _ ?t ?a _ |- _ => exact (no_marshaler_not _ _ _ _ P M) end
  | match goal with P : no_marshaler _ ?t ?a \/ _, M : marshaler _ ?t ?a _ |- _ => destruct P as [P| ->]; [exact (no_marshaler_not _ _ _ _ P M) | destruct M; discriminate] end
  | match goal with P : number_type _ ?t ?a, M : marshaler _ ?t ?a _ |- _ => exact (number_no_marshaler _ _ _ _ P M) end
  | match goal with N : number_type _ ?t _ |- _ => solve [destruct N as [N|[_ N]]; [discriminate N | exact N]] end
  | match goal with N : number_type _ ?t ?a, B : no_marshaler _ ?t ?a |- _ => pose proof (number_under _ _ _ N B) as XX end;
    repeat match goal with X : _ \/ _ |- _ => destruct X | X : exists _, _ |- _ => destruct X | X : _ /\ _ |- _ => destruct X end;
    match goal with XX : match under _ _ with _ => _ end, U : under _ _ = _ |- _ => rewrite U in XX; exact XX end
  | match goal with P : _ \/ ?t = TDuration |- _ => solve [destruct P as [[P _]|P]; discriminate P] end ].

(** There is one such list of fields, up to what the text does not depend on. *)
Definition same_field (f f' : field) : Prop :=
  f_index f = f_index f' /\ f_name f = f_name f' /\ f_quoted f = f_quoted f' /\ f_omitEmpty f = f_omitEmpty f'.

Lemma before_irrefl a : ~ before a a.
Proof. induction a as [|x a IH]; intros C; inversion C; subst; [lia | auto]. Qed.
Lemma before_trans a b : before a b -> forall c, before b c -> before a c.
Proof.
  induction 1 as [x a|x y a b Hx|x a b _ IH]; intros c Hc; inversion Hc; subst; try (constructor; fail); try (constructor; lia); try (apply bf_later; auto).
Qed.

Definition trip (f : field) : list nat * bytes * bool := (f_index f, f_name f, f_tag f).
Lemma sorted_trips fs : forall fs', StronglySorted before (map f_index fs) -> StronglySorted before (map f_index fs') ->
  (forall x, In x (map trip fs) <-> In x (map trip fs')) -> map trip fs = map trip fs'.
Proof.
  assert (After : forall f fs x, Forall (before (f_index f)) (map f_index fs) -> In x (map trip fs) -> before (f_index f) (fst (fst x))).
  { intros f l x F Hx. apply List.in_map_iff in Hx. destruct Hx as (g & <- & Hg). rewrite Forall_forall in F. apply F. exact (List.in_map f_index _ _ Hg). }
  induction fs as [|f fs IH]; intros [|f' fs'] S S' M; [reflexivity | destruct (proj2 (M (trip f')) (or_introl eq_refl)) | destruct (proj1 (M (trip f)) (or_introl eq_refl))|].
  cbn [map] in *. inversion S as [|? ? S1 F]; subst. inversion S' as [|? ? S1' F']; subst.
  assert (Ef : trip f = trip f').
  { destruct (proj1 (M (trip f)) (or_introl eq_refl)) as [|C]; [auto|]. destruct (proj2 (M (trip f')) (or_introl eq_refl)) as [|C']; [auto|]. exfalso.
    apply (before_irrefl (f_index f)). apply (before_trans _ _ (After _ _ _ F C')). apply (After _ _ _ F' C). }
  f_equal; [exact Ef|]. apply IH; auto. intros x. split; intros Hx.
  - destruct (proj1 (M x) (or_intror Hx)) as [C|C]; [|exact C]. exfalso. rewrite <- Ef in C. subst x. apply (before_irrefl (f_index f)), (After _ _ _ F Hx).
  - destruct (proj2 (M x) (or_intror Hx)) as [C|C]; [|exact C]. exfalso. rewrite Ef in C. subst x. apply (before_irrefl (f_index f')), (After _ _ _ F' Hx).
Qed.

Lemma json_fields_same H t fs fs' : json_fields H t fs -> json_fields H t fs' -> Forall2 same_field fs fs'.
Proof.
  intros (S & M & X & D) (S' & M' & X' & D').
  assert (Ht : map trip fs = map trip fs').
  { apply sorted_trips; auto. intros [[i n] g]. transitivity (selected H t i n g); [rewrite <- M | rewrite <- M']; rewrite List.in_map_iff; split.
    - intros (f & [= A B C] & I). exists f. auto.
    - intros (f & I & <- & <- & <-). exists f. auto.
    - intros (f & I & <- & <- & <-). exists f. auto.
    - intros (f & [= A B C] & I). exists f. auto. }
  clear S M S' M'. revert fs' X' D' Ht. induction fs as [|f fs IH]; intros [|f' fs'] X' D' Ht; try discriminate; constructor.
  - injection Ht as A B C _. destruct (X f (or_introl eq_refl)) as (d & u & n & opts & Df).
    assert (Df' : declared H t f' d u n opts) by (unfold declared in *; rewrite <- A; exact Df).
    destruct (D f d u n opts (or_introl eq_refl) Df) as [E1 E2]. destruct (D' f' d u n opts (or_introl eq_refl) Df') as [E1' E2'].
    repeat split; auto; apply Bool.eq_iff_eq_true; [rewrite E2, E2' | rewrite E1, E1']; reflexivity.
  - injection Ht as _ _ _ Ht. apply IH; auto; intros; [apply X | eapply D | apply X' | eapply D']; try (right; eassumption); eassumption.
Qed.

Lemma scalar_kind_basic H u : scalar_kind H u <-> isBasicType (h_env H) (strip_ptr u) = true.
Proof.
  assert (G : forall e, isBasicType (h_env H) e = true <-> match under (h_env H) e with TBool | TInt _ | TFloat _ | TString => True | _ => False end).
  { intros e. unfold isBasicType, isBoolean, isString, isFloatingPoint, isInteger. destruct (under (h_env H) e); cbn; split; auto; try discriminate; contradiction. }
  split.
  - intros (e & De & K). replace (strip_ptr u) with e; [apply G, K|]. destruct De as [-> |[N ->]]; [reflexivity|]. destruct u; cbn; try reflexivity. destruct (N u). reflexivity.
  - intros B. exists (strip_ptr u). split; [|apply G, B]. destruct u; cbn; try (right; split; [discriminate | reflexivity]). left. reflexivity.
Qed.

Lemma json_fields_struct H vcall t k fs : host_ok H vcall -> tyok H t -> structFields H k t = Some fs -> json_fields H t fs.
Proof.
  intros OK T S. split; [apply (C18_order_unique H vcall t k fs OK T S)|]. split; [intros; apply (C18_exact H vcall t k fs _ _ _ OK T S)|]. split.
  - intros f Hf. destruct (C42_tags H vcall t k fs f OK T S Hf) as (d & u & n & opts & D & _). eauto.
  - intros f d u n opts Hf D. destruct (C42_tags H vcall t k fs f OK T S Hf) as (d' & u' & n' & opts' & D' & _ & _ & _ & _ & A & _ & B).
    destruct (declared_det H vcall t f _ _ _ _ _ _ _ _ OK T D D') as (-> & -> & -> & ->). rewrite scalar_kind_basic. auto.
Qed.

Lemma std_fields_same H vcall html t a v fs fs' ms : Forall2 same_field fs fs' -> std_fields H vcall html t a v fs ms -> std_fields H vcall html t a v fs' ms.
Proof.
  assert (L : forall f f', same_field f f' -> left_out H t v f -> left_out H t v f') by (unfold left_out, field_value; intros f f' (-> & _ & _ & ->) X; exact X).
  intros F. revert ms. induction F as [|f f' fs fs' Sf _ IH]; intros ms S; inversion S; subst; [constructor | apply SF_out; eauto|].
  assert (Sf' : same_field f' f) by (destruct Sf as (A & B & C & D); repeat split; auto).
  eapply SF_show; [| | | | | | apply IH; eassumption].
  - unfold field_value in *. rewrite <- (proj1 Sf). eassumption.
  - intros X. eauto.
  - rewrite <- (proj1 (proj2 Sf)). assumption.
  - intros X. match goal with G : through_pointer H t f -> _ |- _ => apply G end. unfold through_pointer in *. rewrite (proj1 Sf). exact X.
  - intros X. match goal with G : ~ through_pointer H t f -> _ |- _ => apply G end. unfold through_pointer in *. rewrite (proj1 Sf). exact X.
  - unfold quoted in *. rewrite <- (proj1 (proj2 (proj2 Sf))). assumption.
Qed.

Lemma std_det H vcall html : shortest_ok (h_shortest H) ->
  (forall t a q v out, std H vcall html t a q v out -> forall out', std H vcall html t a q v out' -> out = out') /\
  (forall e a vs xs, std_elems H vcall html e a vs xs -> forall xs', std_elems H vcall html e a vs xs' -> xs = xs') /\
  (forall kt et es ks ms, std_entries H vcall html kt et es ks ms -> forall ks' ms', std_entries H vcall html kt et es ks' ms' -> ms = ms') /\
  (forall t a v fs ms, std_fields H vcall html t a v fs ms -> forall ms', std_fields H vcall html t a v fs ms' -> ms = ms').
Proof.
  intros SH. apply std_mut.
  - intros t a Bt U out' S. inversion S; subst; try congruence; try reflexivity; clash.
  - intros t a Bt U out' S. inversion S; subst; try congruence; try reflexivity; clash.
  - intros t a k n l Bt U L out' S. inversion S; subst; try congruence; try clash. eapply C09_literal_unique; eauto.
  - intros t a b f l Bt U L out' S. inversion S; subst; try congruence; try clash. assert (b0 = b) by congruence. subst b0.
    assert (X := spelled_append _ _ _ _ SH L). match goal with L' : float_spelled _ _ _ out' |- _ => assert (Y := spelled_append _ _ _ _ SH L') end. congruence.
  - intros t a s x Bt U J out' S. inversion S; subst; try congruence; try clash. eapply string_json_det; eauto.
  - intros a s J out' S. inversion S; subst; try reflexivity; try clash. destruct (jnumber_nonempty J).
  - intros a out' S. inversion S as [| | | | |? ? J| | | | | | | | | | | | | | | |]; subst; try reflexivity; try clash. destruct (jnumber_nonempty J).
  - intros t a v l N S IH out' S'. inversion S'; subst; try (inversion S; fail); try clash. rewrite (IH l0) by assumption. reflexivity.
  - intros t a s x y Bt U J J' out' S. inversion S; subst; try congruence; try clash.
    match goal with A : string_json html s ?z |- _ => assert (z = x) by (eapply string_json_det; eauto) end. subst. eapply string_json_det; eauto.
  - intros a q g y out _ _ T out' S. inversion S; subst; try clash. eapply time_text_fun; eauto.
  - intros a q out' S. inversion S; subst; try reflexivity; clash.
  - intros a q vs b j out V Hb Hj C out' S. inversion S; subst; try clash. assert (b0 = b) by congruence. subst b0. eapply compact_text_det; eauto.
  - intros t a q k v td w r out M R Hv J out' S. inversion S; subst; try clash.
    + match goal with M' : marshaler H t a ?k' |- _ => assert (k' = k) by (eapply marshaler_det; eauto); subst k' end.
      match goal with R' : receiver H t _ v ?td' ?w' |- _ => destruct (receiver_det H _ _ _ _ _ _ _ R R') as [<- <-] end.
      match goal with X : vcall k td w None = inl ?r' |- _ => assert (r' = r) by congruence; subst r' end. eapply method_json_det; eauto.
    + exfalso. match goal with M' : marshaler H t a ?k' |- _ => assert (k' = k) by (eapply marshaler_det; eauto); subst k' end.
      match goal with X : by_address H t k = false |- _ => rewrite X in R end. eapply nil_no_receiver; eauto.
  - intros t a q k M Ba P out' S. inversion S; subst; try reflexivity; try clash. exfalso.
    match goal with M' : marshaler H t a ?k', R : receiver H t (by_address H t ?k') _ _ _ |- _ => assert (k' = k) by (eapply marshaler_det; eauto); subst k' end.
    match goal with R : receiver H t (by_address H t k) _ _ _ |- _ => rewrite Ba in R; eapply nil_no_receiver; eauto end.
  - intros t a q Bt D out' S. inversion S; subst; try reflexivity; clash.
  - intros t a q e v x Bt U _ IH out' S. inversion S; subst; try clash. apply IH. replace e with e0 by congruence. assumption.
  - intros t a q ms td v x Bt U _ IH out' S. inversion S; subst; try clash. apply IH. assumption.
  - intros t a q e vs b x Bt U Be Ue V B6 out' S. inversion S; subst; try congruence; try clash.
    assert (b0 = b) by congruence. subst b0. f_equal. f_equal. eapply base64_text_fun; eauto.
  - intros t a q e vs xs Bt U Ue _ IH out' S. inversion S; subst; try congruence; try clash. f_equal. apply IH. replace e with e0 by congruence. assumption.
  - intros t a q n e vs xs Bt U _ IH out' S. inversion S; subst; try congruence; try clash. f_equal. apply IH. replace e with e0 by congruence. assumption.
  - intros t a q kt et es es' ks ms Bt U Kt P SE IH Sk out' S. inversion S; subst; try congruence; try clash.
    assert (kt0 = kt) by congruence. assert (et0 = et) by congruence. subst. f_equal.
    assert (es' = es'0). { eapply (sorted_perm_unique (fun e s => key_string H vcall kt (fst e) s)); [intros e s s'; apply key_string_det | eapply entries_keys; eassumption | eapply entries_keys; eassumption | assumption | assumption |]. eapply Permutation_trans; [apply Permutation_sym; eassumption | assumption]. }
    subst. eapply IH; eassumption.
  - intros t a q fs0 fs vs ms Bt U Sf _ IH out' S. inversion S; subst; try congruence; try clash. f_equal. apply IH.
    eapply std_fields_same; [|eassumption]. eapply json_fields_same; eassumption.
  - intros e a xs' S. inversion S. reflexivity.
  - intros e a v x vs xs _ IH1 _ IH2 xs' S. inversion S; subst. f_equal; auto.
  - intros kt et ks' ms' S. inversion S. reflexivity.
  - intros kt et k s n v x es ks ms K N _ IH1 _ IH2 ks' ms' S. inversion S; subst.
    match goal with K' : key_string H vcall kt k ?s' |- _ => assert (s' = s) by (eapply key_string_det; eauto) end. subst.
    f_equal; [|eapply IH2; eassumption]. f_equal; [eapply string_json_det; eauto|]. f_equal. auto.
  - intros t a v ms' S. inversion S. reflexivity.
  - intros t a v f fs ms L _ IH ms' S. inversion S; subst; [auto | contradiction].
  - intros t a v f ft fa x n b fs ms F NL N T1 T2 _ IH1 _ IH2 ms' S. inversion S as [| |? ? ? ? ? fa' ? ? ? ? ? F' _ ? T1' T2']; subst; [contradiction|].
    destruct (field_value_det _ _ _ _ _ _ _ _ F' F) as [-> ->].
    assert (fa' = fa).
    { destruct fa; [|assert (Nt : ~ through_pointer H t f) by (intros T; discriminate (T1 T)); rewrite (T2' Nt), <- (T2 Nt); reflexivity].
      destruct fa'; [reflexivity|]. assert (Nt : ~ through_pointer H t f) by (intros T; discriminate (T1' T)). rewrite (T2' Nt), <- (T2 Nt); reflexivity. }
    subst fa'. f_equal; [|auto]. f_equal; [eapply string_json_det; eauto|]. f_equal. auto.
Qed.

(** ** Strings, names and integers as encoded *)
Definition std_opts (html : bool) (o : encOpts) : Prop :=
  o_flags o = (if html then 0 else noHTMLEscaping) /\ o_durationFmt o = 5 /\ o_deny o = None /\ o_allow o = None /\ o_timeLayout o = lit "2006-01-02T15:04:05.999999999Z07:00".

Lemma std_flags html o b : std_opts html o -> In b [unixTime; unsortedMap; rawByteSlice; byteArrayAsString; nilMapEmpty; nilSliceEmpty; noStringEscaping; noUTF8Coercion; noCompact; noNumberValidation] ->
  has (o_flags o) b = false.
Proof. intros (-> & _) Hi. cbn [In] in Hi. destruct html; repeat destruct Hi as [<- | Hi]; try reflexivity; destruct Hi. Qed.
Lemma std_html html o : std_opts html o -> has (o_flags o) noHTMLEscaping = negb html.
Proof. intros (-> & _). destruct html; reflexivity. Qed.

Lemma std_escaped html o s : std_opts html o -> bytes_ok s -> escape_text html s (escaped o s).
Proof.
  intros So Hb. destruct (segments_total s Hb) as (segs & Hs). exists segs. split; [exact Hs|].
  rewrite (escaped_segments o s segs Hb Hs (std_flags html o noStringEscaping So ltac:(cbn; tauto))), (std_flags html o noUTF8Coercion So ltac:(cbn; tauto)), (std_html _ _ So).
  assert (X := esc_segs_text (negb html) segs (segs_scalar _ _ Hs)). rewrite negb_involutive in X. exact X.
Qed.
Lemma encode_string_is s o : bytes_ok s -> encode_string [] s o = lit """" ++ escaped o s ++ lit """".
Proof. intros Hb. unfold encode_string. rewrite appendEscapedBytes_app by exact Hb. reflexivity. Qed.
Lemma std_string html o s : std_opts html o -> bytes_ok s -> string_json html s (encode_string [] s o).
Proof. intros So Hb. exists (escaped o s). split; [apply std_escaped; assumption | apply encode_string_is, Hb]. Qed.

(** Text with nothing to escape. *)
Lemma plain_escape html s rs : utf8_string s rs -> Forall (fun r => 0x20 <= r /\ r <> 0x22 /\ r <> 0x5C /\ (html = true -> r <> 0x3C /\ r <> 0x3E /\ r <> 0x26) /\ r <> 0x2028 /\ r <> 0x2029) rs -> escape_text html s s.
Proof.
  intros U F. exists (map inl rs). split; [apply valid_utf8_segments, U|]. induction U as [|r s rs Hr _ IH]; [constructor|]. inversion F as [|? ? (A & B & C & D & G) F']; subst.
  cbn [map]. constructor; [apply ct_other; auto | apply IH, F'].
Qed.
Lemma ascii_utf8 s : Forall (fun c => 0 <= c < 0x80) s -> utf8_string s s.
Proof.
  induction 1 as [|c l Hc _ IH]; [constructor|]. assert (X := us_cons c l l). rewrite utf8_ascii in X by lia. apply X; [left; lia | exact IH].
Qed.
Lemma digits_escape html s : Forall (fun c => 48 <= c <= 57 \/ c = 45) s -> escape_text html s s.
Proof.
  intros F. apply (plain_escape html s s); [apply ascii_utf8|]; eapply Forall_impl; try exact F; cbn beta; intros c Hc; repeat split; intros; lia.
Qed.
Lemma int_lit_chars l n : int_lit l n -> Forall (fun c => 48 <= c <= 57 \/ c = 45) l.
Proof.
  assert (D : forall ds, Forall digit ds -> Forall (fun c => 48 <= c <= 57 \/ c = 45) ds) by (intros ds; apply Forall_impl; unfold digit; intros; lia).
  intros L. destruct L as [|ds J _|ds J _]; [repeat constructor; lia | apply D, (jint_digits _ J) | constructor; [lia | apply D, (jint_digits _ J)]].
Qed.

Lemma name_escape html s rs : utf8_string s rs -> Forall (fun r => key_rune r /\ r <> 0x2028 /\ r <> 0x2029) rs -> escape_text html s (if html then html_escape s else s).
Proof.
  intros U F. destruct html; [|apply (plain_escape false s rs U); eapply Forall_impl; [|exact F]; intros r ((_ & A & B & C) & D); repeat split; try lia; discriminate].
  exists (map inl rs). split; [apply valid_utf8_segments, U|]. induction U as [|r s rs Hr _ IH]; [constructor|]. inversion F as [|? ? ((Hs & H1 & H2 & H3) & N1 & N2) F']; subst. cbn [map].
  destruct (Z_lt_le_dec r 0x80) as [L|L].
  - assert (E := utf8_ascii r ltac:(lia)). rewrite E. cbn [app]. rewrite html_escape_cons. destruct (is_html r) eqn:Eh.
    + constructor; [|apply IH, F']. unfold is_html in Eh. assert (X : r = 60 \/ r = 62 \/ r = 38) by lia. destruct X as [-> |[-> | ->]]; [apply ct_less | apply ct_greater | apply ct_ampersand]; reflexivity.
    + replace (sep3 (r :: s)) with false by (unfold sep3; destruct s as [|x [|y z]]; try reflexivity; lia). change (r :: html_escape s) with ([r] ++ html_escape s). rewrite <- E.
      constructor; [|apply IH, F']. unfold is_html in Eh. apply ct_other; try lia; intros _; lia.
  - destruct (utf8_head r Hs) as (b & t & E & Hb & Ht). assert (Hnh : is_html b = false) by (pose proof (utf8_high r Hs L) as G; rewrite E in G; inversion G; subst; unfold is_html; lia).
    destruct (utf8_sep r Hs s) as [Hsep|(b' & E' & _)]; [|exfalso; pose proof (utf8_high r Hs L) as G; rewrite E' in G; inversion G; subst; unfold utf8 in E'; destruct (r <? 0x80) eqn:?; [lia|]; destruct (r <? 0x800); [discriminate|]; destruct (r <? 0x10000); discriminate].
    replace ((r =? 0x2028) || (r =? 0x2029)) with false in Hsep by lia.
    assert (X : html_escape (utf8 r ++ s) = utf8 r ++ html_escape s).
    { rewrite E in *. cbn [app] in *. rewrite html_escape_cons, Hnh, Hsep. rewrite html_escape_copy by (eapply Forall_impl; [|exact Ht]; cbn; intros; lia). reflexivity. }
    rewrite X. constructor; [|apply IH, F']. apply ct_other; try lia; intros _; lia.
Qed.

Lemma bare_impl H e k : bare H e -> is_ptr H e = false -> In k [MCtx; MApp; MJson; MText] -> h_impl H e k = false /\ h_impl H (TPtr e) k = false.
Proof.
  intros B P Hi. destruct (B true) as [_ M]. unfold method_of in M. cbn [pick] in M. rewrite P in M. cbn [negb andb] in M.
  destruct (h_impl H e MCtx) eqn:A1; [discriminate|]. destruct (h_impl H (TPtr e) MCtx) eqn:A2; [discriminate|]. destruct (h_impl H e MApp) eqn:A3; [discriminate|]. destruct (h_impl H (TPtr e) MApp) eqn:A4; [discriminate|].
  destruct (h_impl H e MJson) eqn:A5; [discriminate|]. destruct (h_impl H (TPtr e) MJson) eqn:A6; [discriminate|]. destruct (h_impl H e MText) eqn:A7; [discriminate|]. destruct (h_impl H (TPtr e) MText) eqn:A8; [discriminate|].
  cbn [In] in Hi. destruct Hi as [<-|[<-|[<-|[<-|[]]]]]; auto.
Qed.

Lemma key_type_ok H kt : key_type H kt -> key_ok H kt = true.
Proof.
  unfold key_ok, isString, isInteger. intros [U|[(_ & _ & I)|[(_ & k & U)|[_ I]]]]; [rewrite U; reflexivity | rewrite I, !orb_true_r; reflexivity | rewrite U; reflexivity | rewrite I, !orb_true_r; reflexivity].
Qed.

(** ** What the encoder writes *)
(** Text with nothing to escape in a JSON string. *)
Definition no_escapes (html : bool) (s : bytes) : Prop :=
  exists rs, utf8_string s rs /\ Forall (fun r => 0x20 <= r /\ r <> 0x22 /\ r <> 0x5C /\ (html = true -> r <> 0x3C /\ r <> 0x3E /\ r <> 0x26) /\ r <> 0x2028 /\ r <> 0x2029) rs.

(** A key before another stays before it when both are escaped. *)
Definition keys_in_order (H : host) (vcall : mkind -> typ -> val -> option Z -> bytes + Z) (html : bool) (kt : typ) (es : list (val * val)) : Prop :=
  forall k x k' x' s s' y y', In (k, x) es -> In (k', x') es -> key_string H vcall kt k s -> key_string H vcall kt k' s' -> escape_text html s y -> escape_text html s' y' -> lexlt s s' -> lexlt y y'.

(** Different keys have different texts. *)
Definition keys_apart (H : host) (vcall : mkind -> typ -> val -> option Z -> bytes + Z) (kt : typ) (es : list (val * val)) : Prop :=
  forall k x k' x' s, In (k, x) es -> In (k', x') es -> key_string H vcall kt k s -> key_string H vcall kt k' s -> k = k'.
(** Key types encoded as encoding/json does: those with MarshalText have no
    MarshalJSON, integers have no method. *)
Definition ordinary_key (H : host) (kt : typ) : Prop :=
  under (h_env H) kt = TString \/ marshaler H kt false MText \/ bare H kt /\ (exists k, under (h_env H) kt = TInt k) \/ kt = TDuration /\ h_impl H kt MText = false \/ time_key H kt.

(** The methods that can be called on values of the type do not depend on
    whether the value is addressable. *)
Definition steady (H : host) (t : typ) : Prop := native t = true \/ forall k, available H t true k -> available H t false k.
Definition all_steady (H : host) (o : encOpts) (x : node) : Prop := forall t ca q v, part H o x (t, ca, q, v) -> steady H t.

(** Values of the types with an encoding of their own: times from year 1 with
    an offset below 100 hours, JSON in raw messages. *)
Definition native_ordinary (t : typ) (q : bool) (v : val) : Prop :=
  match t, v with
  | TTime, VTime g => forall y, local_year g y -> 0 <= y <= 9999 -> 1 <= y /\ Z.abs (t_offset g) < 360000
  | TRawMessage, VSlice vs => exists b j, vbytes vs = Some b /\ json_text true j b
  | TRawMessage, VNil => True
  | TDuration, _ | TNumber, _ => q = false
  | _, _ => False
  end.
(** Values encoded by kind. *)
Definition kind_ordinary (H : host) (vcall : mkind -> typ -> val -> option Z -> bytes + Z) (html : bool) (o : encOpts) (x : node) : Prop :=
  let '(t, ca, q, v) := x in
  match under (h_env H) t, v with
  | TString, VStr s => q = true -> no_escapes html s
  | TSlice e, _ => under (h_env H) e = TInt KUint8 -> bare H e
  | TMap kt _, VMap es => key_ok H kt = false \/ ordinary_key H kt /\ (forall k x, In (k, x) es -> k = VNil -> is_ptr H kt = true) /\
      NoDup (map fst es) /\ keys_apart H vcall kt es /\ keys_in_order H vcall html kt es
  | TMap kt _, _ => key_ok H kt = false \/ key_type H kt
  | TStruct _, _ => forall k fs f, structFields H k t = Some fs -> In f fs -> f_omitNil f = false /\
      (ca = false -> through_pointer H t f -> forall ft x, field_value H t v f ft x -> all_steady H o (ft, ca, quoted H f ft, x))
  | TIface (Some _), VIface _ _ => False
  | _, _ => True
  end.
(** One part of a value to which none of the findings applies: no append
    methods, no text that needs escapes where the code does not escape. *)
Definition ordinary (H : host) (vcall : mkind -> typ -> val -> option Z -> bytes + Z) (html : bool) (o : encOpts) (x : node) : Prop :=
  let '(t, ca, q, v) := x in
  (native t = true -> native_ordinary t q v) /\
  (native t = false -> ~ available H t ca MCtx /\ ~ available H t ca MApp) /\
  (marshaler H t ca MText -> forall td w r, receiver H t (by_address H t MText) v td w -> vcall MText td w None = inl r -> no_escapes html r) /\
  (no_marshaler H t ca -> kind_ordinary H vcall html o x).
Lemma ordinary_key_type H kt : ordinary_key H kt -> key_type H kt.
Proof.
  intros [U|[M|[(B & k & U)|[[-> F]|T]]]]; [left; exact U | | | | right; right; right; exact T].
  - destruct (under (h_env H) kt) eqn:U; try (right; left; split; [congruence|]; destruct M as (N & [A|(_ & A & _)] & _); [split; assumption | discriminate A]). left. exact U.
  - right. right. left. split; [|eauto]. left. split; [apply (B true)|]. apply (bare_impl H kt MText B); [unfold is_ptr; rewrite U; reflexivity | cbn; tauto].
  - right. right. left. split; [right; reflexivity | exists KInt64; reflexivity].
Qed.
Lemma text_key_marshaler H kt : ordinary_key H kt -> text_key H kt -> marshaler H kt false MText.
Proof.
  intros [U|[M|[(B & k & U)|[[-> F]|[-> T]]]]] (T1 & T2 & T3); [contradiction | exact M | | discriminate | discriminate]. exfalso. destruct (bare_impl H kt MText B) as [X _]; [unfold is_ptr; rewrite U; reflexivity | cbn; tauto | congruence].
Qed.
Definition all_ordinary H vcall html o (x : node) : Prop := forall y, part H o x y -> ordinary H vcall html o y.

(** The value is as addressable as the code takes it to be, or it does not
    matter. *)
Definition agree (H : host) (o : encOpts) (a : bool) (x : node) : Prop := let '(t, ca, q, v) := x in a = ca \/ is_ptr H t = true \/ all_steady H o x.
Lemma agree_available H o a t ca q v k : native t = false -> agree H o a (t, ca, q, v) -> (available H t a k <-> available H t ca k).
Proof.
  intros Nt [-> |[P|S]]; [reflexivity | apply available_addr; auto|]. destruct (S t ca q v (part_refl _ _ _)) as [X|X]; [congruence|].
  assert (Y : available H t false k -> available H t true k) by (intros [A|(_ & A & _)]; [left; exact A | discriminate]).
  destruct a, ca; split; auto.
Qed.
Lemma agree_no_marshaler H o a t ca q v : agree H o a (t, ca, q, v) -> no_marshaler H t ca -> no_marshaler H t a.
Proof. intros A (Nt & B & C). split; [exact Nt|]. rewrite !(agree_available H o a t ca q v _ Nt A). auto. Qed.
Lemma agree_marshaler H o a t ca q v k : agree H o a (t, ca, q, v) -> marshaler H t ca k -> marshaler H t a k.
Proof. intros A (Nt & B & C). split; [exact Nt|]. rewrite !(agree_available H o a t ca q v _ Nt A). auto. Qed.
Lemma steady_child H o x y : child H o x y -> all_steady H o x -> all_steady H o y.
Proof. intros C S t ca q v P. eapply S. eapply part_step; eauto. Qed.
Lemma agree_held H o td q v : agree H o false (td, is_ptr H td, q, v).
Proof. cbn. destruct (is_ptr H td); auto. Qed.
Lemma agree_inner H o a t ca q v ft q' x : is_ptr H t = false -> child H o (t, ca, q, v) (ft, ca, q', x) -> agree H o a (t, ca, q, v) -> agree H o a (ft, ca, q', x).
Proof. intros P C [A|[A|A]]; [left; exact A | congruence | right; right; eapply steady_child; eauto]. Qed.

Lemma plain_no_marshaler H t ca : DocSpec.plain H t ca -> no_marshaler H t ca.
Proof. intros [A B]. apply method_none in B. split; [exact A|]. split; apply B. Qed.

Lemma through_dec H t f : through_pointer H t f \/ ~ through_pointer H t f.
Proof.
  set (test := fun n => match type_by_index H t (firstn n (f_index f)) with Some u => is_ptr H u | None => false end).
  destruct (existsb test (seq 1 (length (f_index f) - 1))) eqn:X; [left|right].
  - apply existsb_exists in X. destruct X as (n & Hn & Ht). apply in_seq in Hn. unfold test in Ht. destruct (type_by_index H t (firstn n (f_index f))) as [u|] eqn:Eu; [|discriminate].
    assert (Y := firstn_skipn n (f_index f)). destruct (skipn n (f_index f)) as [|i q] eqn:Es; [exfalso; assert (Z := skipn_length n (f_index f)); rewrite Es in Z; cbn [length] in Z; lia|].
    exists (firstn n (f_index f)), i, q, u. split; [symmetry; exact Y|]. split; [|auto]. intros C. assert (Z := firstn_length_le (f_index f) (n := n) ltac:(lia)). rewrite C in Z. cbn in Z. lia.
  - intros (p & i & q & u & Ei & Np & Et & Pu). assert (Y : existsb test (seq 1 (length (f_index f) - 1)) = true); [|congruence].
    apply existsb_exists. exists (length p). split.
    + apply in_seq. rewrite Ei, app_length. cbn [length]. destruct p; [congruence|]. cbn [length]. lia.
    + unfold test. rewrite Ei, firstn_app, Nat.sub_diag, firstn_all. cbn [firstn]. rewrite app_nil_r, Et. exact Pu.
Qed.

Lemma no_escapes_twice html s : no_escapes html s -> exists x, string_json html s x /\ string_json html x (lit """\""" ++ s ++ lit "\""""").
Proof.
  intros (rs & U & F). exists (lit """" ++ s ++ lit """"). split; [exists s; split; [eapply plain_escape; eauto | reflexivity]|].
  exists (lit "\""" ++ s ++ lit "\"""). split; [|rewrite <- !app_assoc; reflexivity].
  exists (map inl (34 :: rs ++ [34])). split.
  - apply valid_utf8_segments. change (lit """") with (utf8 34). apply (us_cons 34); [left; lia|]. clear F. induction U as [|r s rs Hr _ IH]; [apply (us_cons 34 []); [left; lia | constructor]|]. cbn [app]. rewrite <- app_assoc. apply us_cons; assumption.
  - cbn [map]. apply (st_cons _ _ _ _ (lit "\""")); [apply ct_quote|]. induction U as [|r s rs Hr _ IH]; [apply (st_cons _ _ _ _ (lit "\""") []); [apply ct_quote | constructor]|].
    inversion F as [|? ? (A & B & C & D & G) F']; subst. cbn [app map]. rewrite <- app_assoc. apply st_cons; [apply ct_other; auto | apply IH, F'].
Qed.

Lemma array_join bs : join_elems true bs = array_of bs.
Proof.
  assert (G : forall b bs, b ++ join_elems false bs = commas (b :: bs) ++ [93]).
  { intros b bs0. revert b. induction bs0 as [|b' bs0 IH]; intros b; [reflexivity|]. cbn [join_elems]. rewrite IH. change (commas (b :: b' :: bs0)) with (b ++ 44 :: commas (b' :: bs0)). rewrite <- app_assoc. reflexivity. }
  destruct bs as [|b bs]; [reflexivity|]. cbn [join_elems]. rewrite G. reflexivity.
Qed.
Lemma members_commas kvs : join_members kvs = commas (map member_text kvs).
Proof. induction kvs as [|kv kvs IH]; [reflexivity|]. destruct kvs as [|kv' kvs]; [reflexivity|]. change (join_members (kv :: kv' :: kvs)) with (member_text kv ++ 44 :: join_members (kv' :: kvs)). rewrite IH. reflexivity. Qed.

Lemma vempty_value v : vempty v = true <-> empty_value v.
Proof.
  unfold empty_value. split.
  - destruct v; cbn [vempty]; try discriminate; intros E; auto 10.
    + destruct b; [discriminate | auto].
    + right. left. f_equal. lia.
    + destruct f; try discriminate. eauto 10.
    + destruct s; [auto 10 | discriminate].
    + destruct vs; [auto 10 | discriminate].
    + destruct vs; [auto 10 | discriminate].
    + destruct es; [auto 10 | discriminate].
  - intros [-> |[-> |[[neg ->]|[-> |[-> |[-> |[-> | ->]]]]]]]; reflexivity.
Qed.

Section Written.
  Variable H : host.
  Variable vcall : mkind -> typ -> val -> option Z -> bytes + Z.
  Hypothesis OK : host_ok H vcall.
  Hypothesis SH : shortest_ok (h_shortest H).
  Hypothesis SO : sort_ok H.
  Variable o : encOpts.
  Variable html : bool.
  Hypothesis STD : std_opts html o.
  Variable m : mem.
  Notation E := (h_env H).
  Notation std := (std H vcall html).

  Notation opt := (has (o_flags o)).
  Notation tok := (typ_ok (h_letter H) (h_udigit H)).
  Notation bytes_of := (bytes_of H vcall o).
  Notation part := (part H o).

  Lemma not_denied n : ~ denied o n.
  Proof. destruct STD as (_ & _ & D & A & _). unfold denied. rewrite D, A. intros [(d & X & _)|(a & X & _)]; discriminate. Qed.

  Lemma field_name_text k t fs f : tok t -> structFields H k t = Some fs -> In f fs -> exists n, string_json html (f_name f) n /\ key_text o (f_name f) = n ++ lit ":".
  Proof.
    intros Ht Hs Hf.
    assert (G : exists rs, utf8_string (f_name f) rs /\ Forall (fun r => key_rune r /\ r <> 0x2028 /\ r <> 0x2029) rs).
    { destruct (structFields_data H (ok_wf _ _ OK) t Ht k fs f Hs Hf) as (p & sq & w & i & v & opts & A1 & A2 & A3 & _). destruct (wf_tables _ (ok_wf _ _ OK)) as (_ & _ & HT).
      destruct A3 as (fs' & d & n & B1 & B2 & _ & _ & [((_ & rs & Hu & Hr) & -> & _)|(_ & -> & _)]).
      - exists rs. split; [exact Hu|]. eapply Forall_impl; [|exact Hr]. intros r (Hsc & [C|C]); unfold key_rune.
        + destruct (valid_chars_ascii r C) as (? & ? & ?). repeat split; auto; lia.
        + destruct (HT r C) as (? & ? & ? & ? & ? & _). repeat split; auto; lia.
      - assert (Hw : tok w) by (eapply path_ok; eauto; apply (ok_wf _ _ OK)). assert (Gw := under_ok H (ok_wf _ _ OK) w Hw). unfold struct_of in B1. rewrite B1 in Gw.
        apply typ_ok_struct in Gw. rewrite Forall_forall in Gw. specialize (Gw _ (nth_error_In _ _ B2)). cbn [fst snd] in Gw. destruct Gw as (_ & (Hn & rs & Hu & Hi) & _).
        exists rs. split; [exact Hu|]. eapply Forall_impl; [|exact Hi]. intros r (Hsc & Hr). unfold key_rune. assert (HT' := HT r).
        destruct Hr as [->|[C|[C|[C|[C|C]]]]]; try (repeat split; auto; lia);
          [destruct (HT' (or_introl C)) as (? & ? & ? & ? & ? & _) | destruct (HT' (or_intror C)) as (? & ? & ? & ? & ? & _)]; repeat split; auto. }
    destruct G as (rs & U & F). exists (lit """" ++ (if html then html_escape (f_name f) else f_name f) ++ lit """"). split; [eexists; split; [eapply name_escape; eauto | reflexivity]|].
    unfold key_text. rewrite (std_html _ _ STD). destruct html; cbn [negb]; unfold key_esc, key_raw; cbn [app lit]; rewrite <- !app_assoc; reflexivity.
  Qed.

  Ltac leaf Hn n P1 P2 U := destruct Hn as [n Hn]; destruct n as [|n]; [discriminate Hn|]; cbn [venc] in Hn; rewrite P1, P2 in Hn; unfold vkind in Hn; rewrite U in Hn.

  Lemma quoted_if t a q v r out : number_type H t a -> (forall x, r = VRet x None -> std t a false v x) -> vquote_if q r = VRet out None -> std t a q v out.
  Proof.
    intros N G Hn. apply vquote_if_none in Hn. destruct Hn as (b & Hb & ->). apply G in Hb. destruct q; [|exact Hb]. apply (S_quoted H vcall html t a v b N Hb).
  Qed.

  Lemma method_written k t' td w out : k = MJson \/ k = MText -> (k = MText -> forall r, vcall MText td w None = inl r -> no_escapes html r) -> vmethod vcall o k t' td w = VRet out None ->
    exists r, vcall k td w None = inl r /\ method_json html k r out.
  Proof.
    intros [-> | ->] Ne Hr; cbn [vmethod] in Hr; apply lift_ret in Hr.
    - destruct (vcall MJson td w None) as [b|e] eqn:Ec; [|discriminate Hr]. exists b. split; [reflexivity|].
      assert (Hb := ok_bytes _ _ OK _ _ _ _ _ Ec). cbn [encode_json_result] in Hr. rewrite (std_flags html o noCompact STD ltac:(cbn; tauto)) in Hr.
      destruct (json_valid b) eqn:Ev; cbn [negb] in Hr; [|discriminate]. injection Hr as <-. rewrite appendCompactJSON_spec by exact Hb. cbn [app].
      apply json_valid_correct in Ev; [|exact Hb]. destruct Ev as [j Hj]. apply (mj_json html b j); [exact Hb | exact Hj|]. rewrite (std_html _ _ STD), negb_involutive. apply (compact_text_of html true j b Hj Hb). reflexivity.
    - destruct (vcall MText td w None) as [b|e] eqn:Ec; [|discriminate Hr]. exists b. split; [reflexivity|].
      cbn [encode_text_result app] in Hr. injection Hr as <-. apply mj_text. destruct (Ne eq_refl b eq_refl) as (rs & U & F). exists b. split; [eapply plain_escape; eauto | reflexivity].
  Qed.

  Notation agree := (agree H o).
  Notation all_ordinary := (all_ordinary H vcall html o).
  Definition good (v : val) : Prop := forall t ca a q out, held H m (t, ca, q, v) -> all_ordinary (t, ca, q, v) -> agree a (t, ca, q, v) -> bytes_of (t, ca, q, v) out -> std t a q v out.

  Lemma elems_written e ca a vs bs : (forall v, In v vs -> good v /\ held H m (e, ca, false, v) /\ all_ordinary (e, ca, false, v) /\ agree a (e, ca, false, v)) ->
    Forall2 (fun v b => bytes_of (e, ca, false, v) b) vs bs -> std_elems H vcall html e a vs bs.
  Proof.
    intros G F. induction F as [|v b vs bs Hb _ IH]; constructor; [|apply IH; intros; apply G; right; assumption].
    destruct (G v (or_introl eq_refl)) as (A & B & C & D). eapply A; eauto.
  Qed.

  Lemma key_written kt k kb : ordinary_key H kt -> (k = VNil -> is_ptr H kt = true) -> held H m (kt, false, false, k) ->
    (isString E kt = false -> h_impl H kt MText && is_ptr H kt && vnil k = false -> good k /\ all_ordinary (kt, false, false, k)) -> key_bytes H vcall o kt false k kb ->
    exists s y, key_string H vcall kt k s /\ escape_text html s y /\ kb = lit """" ++ y ++ lit """".
  Proof.
    intros Kt Kn Hh G [(_ & s & -> & ->)|[(Is & _ & Hi & Hp & -> & ->)|(Is & Nn & b & Hb & ->)]].
    - destruct Hh as (Htk & l & Hl). assert (Hs : bytes_ok s) by (inversion Hl; subst; assumption). assert (U : under E kt = TString) by (inversion Hl; subst; assumption).
      exists s, (escaped o s). split; [constructor; exact U|]. split; [apply std_escaped; assumption | apply encode_string_is, Hs].
    - exists [], []. split; [|split; [exists []; split; constructor | reflexivity]]. apply ks_nil; [|exact Hp]. split; [intros U; unfold is_ptr in Hp; rewrite U in Hp; discriminate|]. split; [|exact Hi].
      unfold is_ptr in Hp. destruct kt; try reflexivity; discriminate Hp.
    - specialize (Nn eq_refl). destruct (G Is Nn) as [Gk Ok]. assert (S : std kt false false k b) by (eapply Gk; eauto; left; reflexivity). clear Gk Ok Hb.
      assert (NS : under E kt <> TString) by (intros U; unfold isString in Is; rewrite U in Is; discriminate).
      assert (IK : forall n l, int_key H kt -> h_impl H kt MText = false -> int_lit l n -> exists s y, key_string H vcall kt (VInt n) s /\ escape_text html s y /\ (if h_impl H kt MText then l else 34 :: l ++ [34]) = lit """" ++ y ++ lit """").
      { intros n l Ik Hf L. rewrite Hf. exists l, l. split; [apply ks_int; assumption|]. split; [eapply digits_escape, int_lit_chars; eauto | reflexivity]. }
      destruct Kt as [U|[M|[(B & ik & U)|[[-> Hf]|[-> Hi]]]]]; [contradiction|..].
      + assert (Hi : h_impl H kt MText = true) by (destruct M as (_ & [A|(_ & A & _)] & _); [exact A | discriminate]). rewrite Hi.
        assert (T : text_key H kt) by (split; [exact NS|]; split; [apply M | exact Hi]).
        inversion S; subst; try (match goal with N : no_marshaler H _ _ |- _ => destruct (no_marshaler_not H _ _ _ N M) end);
          try (destruct M as [M0 _]; discriminate M0);
          try (match goal with N : _ \/ _ |- _ => destruct N as [N| ->]; [destruct (no_marshaler_not H _ _ _ N M) | destruct M as [M0 _]; discriminate M0] end).
        * match goal with M' : marshaler H kt false ?k' |- _ => assert (k' = MText) by (eapply marshaler_det; eauto); subst k' end.
          match goal with J : method_json html MText _ _ |- _ => inversion J; subst end. match goal with J : string_json html ?r b |- _ => destruct J as (y & Y & ->); exists r, y end.
          split; [|split; [exact Y | reflexivity]]. match goal with R : receiver H kt (by_address H kt MText) _ _ _ |- _ => unfold by_address in R; rewrite Hi in R; cbn [negb] in R end. eapply ks_text; eauto.
        * exfalso. specialize (Kn eq_refl). rewrite Hi, Kn in Nn. discriminate Nn.
      + assert (Hf : h_impl H kt MText = false) by (apply (bare_impl H kt MText B); [unfold is_ptr; rewrite U; reflexivity | cbn; tauto]).
        assert (Nm := plain_no_marshaler H kt false (B false)).
        inversion S; subst; try congruence; try clash; try (apply IK; auto; split; [left; split; [apply B; exact true | exact Hf] | eauto]).
        all: try (match goal with D : _ \/ _ |- _ => destruct D as [(e' & [D|D])|[(ms & D)|(kt' & et' & D & K)]]; congruence end).
      + inversion S; subst; try discriminate; try clash; try (match goal with M : marshaler H _ _ _ |- _ => destruct M; discriminate end); try (match goal with M : no_marshaler H _ _ |- _ => destruct M; discriminate end).
        apply IK; auto. split; [right; reflexivity | exists KInt64; reflexivity].
      + rewrite Hi. inversion S; subst; try discriminate; try clash; try (match goal with M : marshaler H _ _ _ |- _ => destruct M; discriminate end); try (match goal with M : no_marshaler H _ _ |- _ => destruct M; discriminate end).
        match goal with T : time_text g true b |- _ => destruct (time_text_plain _ _ _ T) as (s & -> & Fs) end.
        exists s, s. split; [eapply ks_time; eauto; split; [reflexivity | exact Hi]|]. split; [|reflexivity]. apply (plain_escape html s s); [apply ascii_utf8|]; eapply Forall_impl; try exact Fs; cbn beta; intros c Hc; repeat split; intros; lia.
  Qed.

  Lemma entries_written kt et : ordinary_key H kt -> forall es kvs, (forall k x, In (k, x) es -> k = VNil -> is_ptr H kt = true) -> NoDup (map fst es) -> keys_apart H vcall kt es -> keys_in_order H vcall html kt es ->
    (forall k v, In (k, v) es -> held H m (kt, false, false, k) /\ (isString E kt = false -> h_impl H kt MText && is_ptr H kt && vnil k = false -> good k /\ all_ordinary (kt, false, false, k)) /\
      good v /\ held H m (et, false, false, v) /\ all_ordinary (et, false, false, v)) ->
    Forall2 (fun kv e => entry_bytes H vcall o kt et e kv) kvs es -> StronglySorted (fun a b => key_le (sort_key (fst a)) (sort_key (fst b))) kvs ->
    exists ks, std_entries H vcall html kt et es ks (map member_text kvs) /\ StronglySorted lexlt ks.
  Proof.
    intros Kt es kvs KN ND KA KO G F. revert KN ND KA KO G. induction F as [|[kb vb] [k v] kvs es [Hk Hv] F IH]; intros KN ND KA KO G S; [exists []; split; constructor|]. cbn [fst snd] in *.
    inversion ND as [|? ? N1 N2]; subst. inversion S as [|? ? S1 S2]; subst.
    destruct (IH) as (ks & E1 & E2); [intros k1 x1 I1; eapply KN; right; eassumption | exact N2 | intros k1 x1 k2 x2 s1 I1 I2; eapply KA; right; eassumption | intros k1 x1 k2 x2 s1 s2 y1 y2 I1 I2; eapply KO; right; eassumption | intros; apply G; right; assumption | exact S1|].
    destruct (G k v (or_introl eq_refl)) as (Hh & Gk & Gv & Hhv & Ov). destruct (key_written kt k kb Kt (KN k v (or_introl eq_refl)) Hh Gk Hk) as (s & y & K1 & Y1 & Ekb). exists (s :: ks). split.
    - cbn [map]. replace (member_text (kb, vb)) with (kb ++ lit ":" ++ vb) by reflexivity. apply SM_cons; [exact K1 | exists y; split; [exact Y1 | exact Ekb] | eapply Gv; eauto; left; reflexivity | exact E1].
    - constructor; [exact E2|]. assert (Fk := entries_keys H vcall html kt et _ _ _ E1). rewrite Forall_forall. intros s' Hs'.
      assert (X : exists e, In e es /\ key_string H vcall kt (fst e) s').
      { clear - Fk Hs'. induction Fk as [|e s l ks Ke _ IH]; [destruct Hs'|]. destruct Hs' as [<-|Hs']; [exists e; split; [left; reflexivity | exact Ke]|]. destruct (IH Hs') as (e' & A & B). exists e'. split; [right; exact A | exact B]. }
      destruct X as ([k' v'] & Hi & K2). cbn [fst] in K2.
      assert (X : exists kv, In kv kvs /\ entry_bytes H vcall o kt et (k', v') kv).
      { clear - F Hi. induction F as [|kv e l es Ke _ IH]; [destruct Hi|]. destruct Hi as [->|Hi]; [exists kv; split; [left; reflexivity | exact Ke]|]. destruct (IH Hi) as (e' & A & B). exists e'. split; [right; exact A | exact B]. }
      destruct X as ([kb' vb'] & Hi' & Hk' & _). cbn [fst] in Hk'. destruct (G k' v' (or_intror Hi)) as (Hh' & Gk' & _).
      destruct (key_written kt k' kb' Kt (KN k' v' (or_intror Hi)) Hh' Gk' Hk') as (s2 & y' & K3 & Y2 & Ekb'). assert (s2 = s') by (eapply key_string_det; eauto). subst s2.
      rewrite Forall_forall in S2. specialize (S2 _ Hi'). cbn [fst] in S2. subst kb kb'. rewrite (sort_key_quoted y : sort_key (lit """" ++ y ++ lit """") = y), (sort_key_quoted y' : sort_key (lit """" ++ y' ++ lit """") = y') in S2. apply key_le_lex in S2.
      assert (Ns : s <> s') by (intros <-; apply N1; rewrite (KA k v k' v' s (or_introl eq_refl) (or_intror Hi) K1 K2); apply (List.in_map fst _ _ Hi)).
      destruct (lexle_total s s') as [L|L]; [split; assumption|]. exfalso.
      destruct (KO k' v' k v s' s y' y (or_intror Hi) (or_introl eq_refl) K2 K1 Y2 Y1 (conj L (not_eq_sym Ns))) as [L1 L2]. apply L2. apply lexle_antisym; assumption.
  Qed.

  Lemma left_out_hidden t v f : f_omitNil f = false -> (hidden H o t v f <-> left_out H t v f).
  Proof.
    intros Nn. split.
    - intros [D|[D|(ft & x & F & [[C _]|[C V]])]]; [destruct (not_denied _ D) | left; exact D | congruence|]. right. exists ft, x. split; [exact F|]. split; [exact C | apply vempty_value, V].
    - intros [D|(ft & x & F & C & V)]; [right; left; exact D|]. right. right. exists ft, x. split; [exact F|]. right. split; [exact C | apply vempty_value, V].
  Qed.

  Lemma fields_written k t ca a vs all : tok t -> structFields H k t = Some all -> (forall f, In f all -> f_omitNil f = false) ->
    (forall f ft x, In f all -> shown H o t (VStruct vs) f ft x -> good x /\ held H m (ft, ca, quoted H f ft, x) /\ all_ordinary (ft, ca, quoted H f ft, x) /\
      exists fa, (through_pointer H t f -> fa = true) /\ (~ through_pointer H t f -> fa = a) /\ agree fa (ft, ca, quoted H f ft, x)) ->
    forall fs l, incl fs all -> shown_bytes H vcall o t ca (VStruct vs) fs l -> exists ms, std_fields H vcall html t a (VStruct vs) fs ms /\ object_text o l = object_of ms.
  Proof.
    intros Ht Hs Nn G.
    assert (X : forall fs l, incl fs all -> shown_bytes H vcall o t ca (VStruct vs) fs l -> std_fields H vcall html t a (VStruct vs) fs (map (field_text o) (ShapeThm.kept l)) /\ (forall f, ~ In (f, None) l)).
    { intros fs l Hi S. revert Hi. induction S as [|f fs l Hh _ IH|f ft x b fs l Sh Hb [D _] He _ IH|f ft x b fs l Sh Hb Nd _ IH]; intros Hi.
      - split; [constructor | intros f []].
      - destruct IH as [A B]; [intros g Hg; apply Hi; right; exact Hg|]. split; [|exact B]. apply SF_out; [apply (left_out_hidden t _ f); [apply Nn, Hi; left; reflexivity | exact Hh] | exact A].
      - exfalso. rewrite (Nn f (Hi f (or_introl eq_refl))) in D. discriminate.
      - destruct IH as [A B]; [intros g Hg; apply Hi; right; exact Hg|]. split; [|intros g [C|C]; [discriminate | apply (B g C)]].
        assert (If : In f all) by (apply Hi; left; reflexivity). destruct (field_name_text k t all f Ht Hs If) as (n & N1 & N2). destruct (G f ft x If Sh) as (G1 & G2 & G3 & fa & G4 & G5 & G6).
        cbn [ShapeThm.kept flat_map app map]. fold (ShapeThm.kept l). unfold field_text at 1. cbn [fst snd]. rewrite N2, <- app_assoc.
        eapply SF_show; [apply Sh | intros C; apply (shown_not_hidden H o _ _ _ _ _ Sh); apply left_out_hidden; [apply Nn, If | exact C] | exact N1 | exact G4 | exact G5 | eapply G1; eauto | exact A]. }
    intros fs l Hi S. destruct (X fs l Hi S) as [A B]. eexists. split; [exact A|]. rewrite object_kept; [reflexivity|]. intros f l' ->. apply (B f). left. reflexivity.
  Qed.

  Lemma native_written t ca a q v out : held H m (t, ca, q, v) -> native t = true -> native_ordinary t q v -> bytes_of (t, ca, q, v) out -> std t a q v out.
  Proof.
    intros (Ht & l & Hl) Nt Ot [k Hb]. destruct k as [|k]; [discriminate|]. cbn [venc] in Hb. rewrite Nt in Hb. destruct t; try discriminate Nt; cbn [native_ordinary] in Ot; cbn [vnative] in Hb.
    - destruct v; try destruct Ot; try discriminate. destruct (inv_time _ _ _ _ _ Hl) as (_ & _ & Hg). apply lift_ret in Hb.
      assert (Hy : 0 <= time_year t <= 9999). { unfold encode_time in Hb. destruct ((time_year t <? 0) || (10000 <=? time_year t)) eqn:Ey; [discriminate | lia]. }
      destruct (Ot (time_year t) (proj2 (local_year_iff t _) eq_refl) Hy) as [Y1 Y2].
      rewrite (encode_rfc H t o true Hy) in Hb by (split; [apply (std_flags html o unixTime STD); cbn; tauto | apply STD]).
      destruct (append_time_text t true Hg ltac:(lia) Y2) as (s & Es & Ts). rewrite Es in Hb. injection Hb as <-. eapply S_time; [apply local_year_iff; reflexivity | exact Hy | exact Ts].
    - destruct v; try discriminate. subst q.
      assert (D : encode_duration (h_shortest H) (h_tofloat H) n [] o = Ret (append_int [] n) None) by (unfold encode_duration; destruct STD as (_ & -> & _); reflexivity).
      rewrite D in Hb. injection Hb as <-. destruct (append_int_spec [] n) as (s & -> & L). apply (S_int H vcall html TDuration a KInt64); [right; reflexivity | reflexivity | exact L].
    - destruct v; try discriminate. subst q. unfold encode_number in Hb.
      rewrite (std_flags html o noNumberValidation STD ltac:(cbn; tauto)) in Hb. cbn [negb andb] in Hb. destruct s as [|c s]; [injection Hb as <-; apply S_num_empty|].
      destruct (is_valid_number (c :: s)) eqn:V; [|discriminate]. injection Hb as <-. apply S_num. apply is_valid_number_correct, V.
    - destruct v; try destruct Ot; try discriminate; [injection Hb as <-; apply S_raw_nil|]. destruct H0 as (j & Vb & Hj). rewrite Vb in Hb.
      assert (Hx : bytes_ok x) by (apply (vbytes_ok H m l TRawMessage (TInt KUint8) vs x); auto).
      cbn [encode_raw_message] in Hb. rewrite (std_flags html o noCompact STD ltac:(cbn; tauto)), appendCompactJSON_spec in Hb by exact Hx. injection Hb as <-. cbn [app].
      apply (S_raw H vcall html a q vs x j); auto. rewrite (std_html _ _ STD), negb_involutive. apply (compact_text_of html true j x Hj Hx). reflexivity.
    - destruct v; destruct Ot.
  Qed.

  Theorem written n : forall v, (vsize v < n)%nat -> good v.
  Proof.
    induction n as [|n IH]; intros v Hn; [lia|]. intros t ca a q out Hh Ho Ag Hb.
    assert (Ot : ordinary H vcall html o (t, ca, q, v)) by (apply Ho; constructor). destruct Ot as (On & Oa & Om & Ok).
    assert (Ch : forall y, child H o (t, ca, q, v) y -> held H m y /\ all_ordinary y).
    { intros y Hc. split; [eapply child_held; eauto | intros z Hz; apply Ho; eapply part_step; eauto]. }
    destruct (native t) eqn:P1; [eapply native_written; eauto|]. destruct (Oa eq_refl) as [Oa1 Oa2].
    destruct (method_of H t ca) as [[mk hp]|] eqn:P2.
    { (* a method *)
      assert (P3 := proj1 (method_first H t ca mk hp) P2). destruct P3 as [[Av Fm] ->].
      assert (Hk : mk = MJson \/ mk = MText) by (destruct mk; try contradiction; auto).
      assert (Mc : marshaler H t ca mk) by (split; [exact P1|]; split; [exact Av|]; destruct Hk as [-> | ->]; [left; reflexivity | right; split; [reflexivity|]; apply Fm; cbn; lia]).
      assert (Ma := agree_marshaler H o a t ca q v mk Ag Mc).
      destruct Hb as [k Hb]. destruct k as [|k]; [discriminate|]. cbn [venc] in Hb. rewrite P1, P2 in Hb. apply vmarshaler_receiver in Hb.
      destruct Hb as [(-> & B & C & -> & _)|(td & w & R & M)]; [eapply S_method_nil; eauto|].
      assert (Nx : mk = MText -> forall r, vcall MText td w None = inl r -> no_escapes html r) by (intros -> r Hr; eapply Om; eauto).
      destruct (method_written mk _ td w out Hk Nx M) as (r & R1 & R2). eapply S_method; eauto. }
    assert (Bc := plain_no_marshaler H t ca (conj P1 P2)). assert (Bt := agree_no_marshaler H o a t ca q v Ag Bc). specialize (Ok Bc). rename Ok into Ot. cbn [kind_ordinary] in Ot. clear On Oa Om.
    assert (Hb0 := Hb). destruct Hh as (Ht & l & Hl).
    assert (Nb : match under E t with TBool | TInt _ | TFloat _ => True | _ => False end -> number_type H t a) by (intros X; right; split; [left; exact Bt | exact X]).
    destruct (under E t) as [|ik|fb| | | | | |im|pt|st|an at_|kt et|fs0| | | | | |] eqn:U; try (exfalso; leaf Hb k P1 P2 U; discriminate Hb).
    - leaf Hb k P1 P2 U. destruct v; try discriminate. eapply quoted_if; [exact (Nb I) | | exact Hb]. intros x [= <-]. destruct b; [apply S_true | apply S_false]; assumption.
    - leaf Hb k P1 P2 U. destruct v; try discriminate. eapply quoted_if; [exact (Nb I) | | exact Hb]. intros x [= <-].
      destruct (inv_int _ _ _ _ _ Hl) as (ik' & U' & _ & Rg). assert (ik' = ik) by congruence. subst ik'. destruct (encode_int_spec ik n0 [] Rg) as (s & -> & L).
      apply (S_int H vcall html t a ik); auto.
    - leaf Hb k P1 P2 U. destruct v; try discriminate. eapply quoted_if; [exact (Nb I) | | exact Hb]. intros x Hx. apply (S_float H vcall html t a fb); auto. apply append_spelled; [exact SH|].
      destruct (appendFloat (h_shortest H) [] f fb); cbn [lift] in Hx; try discriminate. congruence.
    - leaf Hb k P1 P2 U. destruct v; try discriminate. injection Hb as <-. assert (Hs : bytes_ok s) by (inversion Hl; subst; assumption). destruct q.
      + destruct (no_escapes_twice html s (Ot eq_refl)) as (x & X1 & X2). replace (encode_quoted_string [] s o) with (lit """\""" ++ s ++ lit "\"""""); [eapply S_quoted_str; eauto|].
        unfold encode_quoted_string. rewrite appendEscapedBytes_app by exact Hs. assert (X : escaped o s = s).
        { destruct (Ot eq_refl) as (rs & R1 & R2). eapply escape_text_det; [apply (std_escaped html o s STD Hs) | eapply plain_escape; eauto]. }
        rewrite X, <- app_assoc. reflexivity.
      + apply S_str; auto. apply std_string; assumption.
    - destruct v as [| | | | | |td v| | | | | | |]; try (leaf Hb k P1 P2 U; destruct im; discriminate Hb).
      + leaf Hb k P1 P2 U. destruct im; injection Hb as <-; apply S_nil; eauto 8.
      + destruct im; [destruct Ot|]. eapply S_iface; [exact Bt | exact U|]. assert (X := iface_bytes H vcall o t ca q _ td v out (conj P1 P2) U Hb).
        destruct (Ch _ (ch_iface H o t ca q td v (conj P1 P2) U)) as [A B]. eapply (IH v); eauto; [cbn [vsize] in Hn; lia | apply agree_held].
    - destruct v as [| | | | |v| | | | | | | |]; try (leaf Hb k P1 P2 U; discriminate Hb).
      + leaf Hb k P1 P2 U. injection Hb as <-. apply S_nil; eauto 8.
      + eapply S_ptr; [exact Bt | exact U|]. assert (X := pointer_bytes H vcall o t ca q _ v out (conj P1 P2) U Hb).
        destruct (Ch _ (ch_ptr H o t ca q _ v (conj P1 P2) U)) as [A B]. eapply (IH v); eauto; [cbn [vsize] in Hn; lia | left; reflexivity].
    - destruct v as [| | | | | | |vs| | | | | |]; try (leaf Hb k P1 P2 U; discriminate Hb).
      + leaf Hb k P1 P2 U. assert (out = lit "null") as ->; [|apply S_nil; eauto 8]. destruct (byte_elem H st); [injection Hb as <-; reflexivity|]. rewrite (std_flags html o nilSliceEmpty STD ltac:(cbn; tauto)) in Hb. injection Hb as <-. reflexivity.
      + destruct (byte_elem H st) eqn:Be.
        * assert (Ue := byte_elem_under _ _ Be). leaf Hb k P1 P2 U. rewrite Be in Hb. destruct (vbytes vs) as [b|] eqn:Vb; [|discriminate]. unfold encode_byte_slice in Hb.
          rewrite (std_flags html o rawByteSlice STD ltac:(cbn; tauto)) in Hb. injection Hb as <-. eapply S_bytes; eauto. apply base64_correct. eapply (vbytes_ok H); eauto.
        * assert (Ue : under E st <> TInt KUint8).
          { intros Ue. specialize (Ot Ue). unfold byte_elem in Be. rewrite Ue in Be. destruct (bare_impl H st MJson Ot) as [_ A]; [unfold is_ptr; rewrite Ue; reflexivity | cbn; tauto|].
            destruct (bare_impl H st MText Ot) as [_ B]; [unfold is_ptr; rewrite Ue; reflexivity | cbn; tauto|]. rewrite A, B in Be. discriminate. }
          destruct (slice_bytes H vcall o t ca q st vs out (conj P1 P2) U Be Hb) as (bs & F & ->). rewrite array_join. eapply S_slice; eauto. apply (elems_written st true); [|exact F].
          intros x Hx. split; [apply IH; cbn [vsize] in Hn; assert (X := vsize_in _ _ Hx); lia|].
          destruct (Ch (st, true, false, x)) as [A B]; [eapply ch_slice; eauto; split; assumption|]. split; [exact A|]. split; [exact B | left; reflexivity].
    - destruct v as [| | | | | | | |vs| | | | |]; try (leaf Hb k P1 P2 U; discriminate Hb).
      assert (Be : byte_elem H at_ && opt byteArrayAsString = false) by (rewrite (std_flags html o byteArrayAsString STD ltac:(cbn; tauto)); apply andb_false_r).
      destruct (array_bytes H vcall o t ca q _ at_ vs out (conj P1 P2) U Be Hb) as (bs & F & ->). rewrite array_join. eapply S_array; eauto. apply (elems_written at_ ca); [|exact F].
      intros x Hx. split; [apply IH; cbn [vsize] in Hn; assert (X := vsize_in _ _ Hx); lia|].
      assert (C : child H o (t, ca, q, VArr vs) (at_, ca, false, x)) by (eapply ch_array; eauto; split; assumption). destruct (Ch _ C) as [A B]. split; [exact A|]. split; [exact B|].
      eapply agree_inner; eauto. unfold is_ptr. rewrite U. reflexivity.
    - destruct (key_ok H kt) eqn:Kk; [|leaf Hb k P1 P2 U; rewrite Kk in Hb; discriminate Hb].
      destruct v as [| | | | | | | | |es| | | |]; try (leaf Hb k P1 P2 U; rewrite Kk in Hb; discriminate Hb).
      + leaf Hb k P1 P2 U. rewrite Kk in Hb. cbn [negb] in Hb. rewrite (std_flags html o nilMapEmpty STD ltac:(cbn; tauto)) in Hb. injection Hb as <-. apply S_nil; [assumption|]. destruct Ot as [Ot|Ot]; [discriminate Ot|]. eauto 8.
      + destruct Ot as [Ot|(Kt & KN & ND & KA & KO)]; [discriminate Ot|]. destruct (map_bytes H vcall o SO t ca q kt et es out (conj P1 P2) U Kk Hb) as (kvs & F & kvs' & Pm & -> & Sr). rewrite (std_flags html o unsortedMap STD ltac:(cbn; tauto)) in Sr.
        assert (F' : Forall2 (fun kv e => entry_bytes H vcall o kt et e kv) kvs es) by (clear - F; induction F; constructor; assumption).
        destruct (Forall2_perm _ _ _ Pm _ F') as (es' & F2 & Pe).
        destruct (entries_written kt et Kt es' kvs') as (ks & A & B); [| eapply Permutation_NoDup; [apply Permutation_map, Pe | exact ND] | | | | exact F2 | exact Sr|].
        * intros k1 x1 I1. apply (KN k1 x1). eapply Permutation_in; try (apply Permutation_sym; exact Pe); assumption.
        * intros k1 x1 k2 x2 s1 I1 I2. apply (KA k1 x1 k2 x2); eapply Permutation_in; try (apply Permutation_sym; exact Pe); assumption.
        * intros k1 x1 k2 x2 s1 s2 y1 y2 I1 I2. apply (KO k1 x1 k2 x2); eapply Permutation_in; try (apply Permutation_sym; exact Pe); assumption.
        * intros k v Hi. assert (Hi' : In (k, v) es) by (eapply Permutation_in; [apply Permutation_sym, Pe | exact Hi]). assert (Sz := vsize_entry _ _ _ Hi'). cbn [vsize] in Hn. split; [|split; [|split]].
          -- destruct (inv_map _ _ _ _ _ Hl) as (kt' & et' & a' & addrs & U' & _ & _ & _ & Len & G). rewrite U in U'. injection U' as <- <-.
             destruct (In_nth_error _ _ Hi') as [i Ei]. destruct (nth_error addrs i) as [[ka va]|] eqn:Ea; [|apply nth_error_None in Ea; assert (i < length es)%nat by (apply nth_error_Some; congruence); lia].
             destruct (G i ka va k v Ea Ei) as [G1 _]. split; [|eauto]. assert (X := under_ok H (ok_wf _ _ OK) t Ht). rewrite U in X. apply X.
          -- intros I1 I2. split; [apply IH; lia|]. apply Ch. eapply ch_key; eauto; split; assumption.
          -- apply IH. lia.
          -- apply Ch. eapply ch_elem; eauto; split; assumption.
        * rewrite members_commas. eapply S_map; eauto. apply ordinary_key_type; assumption.
    - destruct v as [| | | | | | | | | |vs| | |]; try (leaf Hb k P1 P2 U; discriminate Hb).
      destruct (struct_bytes H vcall OK o t ca q fs0 vs out Ht (conj P1 P2) U Hb) as (k & fs & bl & Sf & Sb & ->).
      destruct (fields_written k t ca a vs fs Ht Sf (fun f Hf => proj1 (Ot k fs f Sf Hf))) with (fs := fs) (l := bl) as (ms & A & ->); [| intros f Hf; exact Hf | exact Sb|].
      + intros f ft x Hf Sh.
        assert (C : child H o (t, ca, q, VStruct vs) (ft, ca, quoted H f ft, x)) by (eapply ch_field; eauto; split; assumption). destruct (Ch _ C) as [A B].
        split; [apply IH; destruct Sh as (_ & (V & _) & _); assert (X := vget_size _ _ _ V (field_index_nonempty H vcall t k fs f OK Ht Sf Hf)); lia|].
        split; [exact A|]. split; [exact B|]. destruct (through_dec H t f) as [T|T].
        * exists true. split; [reflexivity|]. split; [contradiction|]. destruct ca; [left; reflexivity|]. right. right. eapply (proj2 (Ot k fs f Sf Hf)); eauto. apply Sh.
        * exists a. split; [contradiction|]. split; [reflexivity|]. eapply agree_inner; eauto. unfold is_ptr. rewrite U. reflexivity.
      + eapply S_struct; eauto. eapply json_fields_struct; eauto.
  Qed.
End Written.

(** ** Such a value has an encoding *)
Section NoError.
  Variable H : host.
  Variable vcall : mkind -> typ -> val -> option Z -> bytes + Z.
  Hypothesis SH : shortest_ok (h_shortest H).
  Variable o : encOpts.
  Variable html : bool.
  Hypothesis STD : std_opts html o.
  Notation E := (h_env H).
  Notation std := (std H vcall html).

  Lemma std_no_raise t ca a q v out e : std t a q v out -> ordinary H vcall html o (t, ca, q, v) -> agree H o a (t, ca, q, v) -> ~ raises H vcall o (t, ca, q, v) e.
  Proof.
    intros S (On & Oa & Om & Ok) Ag R.
    assert (Np : DocSpec.plain H t ca -> no_marshaler H t a) by (intros P; eapply agree_no_marshaler; eauto; apply plain_no_marshaler, P).
    inversion R; subst.
    - inversion S; subst; try clash. match goal with A : local_year g ?y1, B : is_year _ ?y2 |- _ => change 719163 with (rata_die 1970 1 1) in B; apply local_year_iff in A; apply (local_year_iff g y2) in B end. lia.
    - match goal with P : DocSpec.plain H t ca |- _ => specialize (Np P) end.
      assert (G : forall x, ~ std t a false (VFloat f) x).
      { intros x X. inversion X; subst; try clash. match goal with F : float_spelled _ _ _ _ |- _ => apply (spelled_append _ _ _ _ SH) in F; rewrite appendFloat_not_finite in F by assumption; discriminate F end. }
      destruct q; [|apply (G _ S)]. inversion S; subst; try clash. eapply G; eassumption.
    - destruct STD as (_ & D & _). match goal with X : o_durationFmt o = _ |- _ => rewrite D in X; destruct mins; discriminate X end.
    - assert (G : forall x, ~ std TNumber a false (VStr s) x) by (intros x X; inversion X; subst; try contradiction; clash).
      destruct q; [|apply (G _ S)]. inversion S; subst; try clash. eapply G; eassumption.
    - match goal with P : DocSpec.plain H t ca, O : opaque H t = true |- _ => specialize (Np P); unfold opaque in O; inversion S; subst; try clash;
        try (match goal with U : under E t = _ |- _ => rewrite U in O; discriminate O end);
        try (match goal with N : number_type H t a |- _ => assert (X := number_under H t a N Np); destruct (under E t); try discriminate O; exact X end);
        repeat match goal with X : _ \/ _ |- _ => destruct X | X : exists _, _ |- _ => destruct X | X : _ /\ _ |- _ => destruct X end;
        try (match goal with U : under E t = _ |- _ => rewrite U in O; discriminate O end); subst; try (destruct Np; discriminate) end.
    - match goal with P : DocSpec.plain H t ca |- _ => specialize (Np P) end.
      assert (G : forall kt', key_type H kt' -> under E t = TMap kt' et -> False).
      { intros kt' Kt U. assert (kt' = kt) by congruence. subst kt'. match goal with K : key_ok H kt = false |- _ => rewrite (key_type_ok H kt Kt) in K; discriminate K end. }
      inversion S; subst; try clash; try congruence.
      + match goal with D : _ \/ _ |- _ => destruct D as [(e' & [D|D])|[(ms & D)|(kt' & et' & D & K)]]; try congruence end. apply (G kt' K). congruence.
      + match goal with K : key_type H ?kt', U : under E t = TMap ?kt' _ |- _ => apply (G kt' K); congruence end.
    - destruct (method_first H t ca k hp) as [Mf _]. destruct Mf as [[Av Fm] ->]; [assumption|]. destruct Oa as [Oa1 Oa2]; [assumption|].
      assert (Mc : marshaler H t ca k) by (split; [assumption|]; split; [exact Av|]; destruct k; try contradiction; [left; reflexivity | right; split; [reflexivity|]; apply Fm; cbn; lia]).
      assert (Ma := agree_marshaler H o a t ca q v k Ag Mc). assert (Hc : ctx_of o k = None) by (destruct k; try contradiction; reflexivity). rewrite Hc in *.
      inversion S; subst; try clash.
      + match goal with M' : marshaler H t a ?k', R' : receiver H t (by_address H t ?k') _ _ _ |- _ => assert (k' = k) by (eapply marshaler_det; eauto); subst k' end.
        match goal with R1 : receiver H t (by_address H t k) v td w, R2 : receiver H t (by_address H t k) v ?td' ?w', V : vcall k ?td' ?w' None = inl _ |- _ => destruct (receiver_det H _ _ _ _ _ _ _ R1 R2) as [<- <-]; congruence end.
      + match goal with M' : marshaler H t a ?k', B : by_address H t ?k' = false |- _ => assert (k' = k) by (eapply marshaler_det; eauto); subst k'; match goal with R1 : receiver H t (by_address H t k) VNil td w |- _ => rewrite B in R1; eapply nil_no_receiver; eauto end end.
    - destruct (method_first H t ca MJson hp) as [Mf _]. destruct Mf as [[Av Fm] ->]; [assumption|].
      assert (Mc : marshaler H t ca MJson) by (split; [assumption|]; split; [exact Av | left; reflexivity]).
      assert (Ma := agree_marshaler H o a t ca q v MJson Ag Mc).
      inversion S; subst; try clash.
      + match goal with M' : marshaler H t a ?k', R' : receiver H t (by_address H t ?k') _ _ _, V : vcall ?k' _ _ None = inl ?r, J : method_json _ ?k' ?r _ |- _ => assert (k' = MJson) by (eapply marshaler_det; eauto); subst k' end.
        match goal with R1 : receiver H t (by_address H t MJson) v td w, R2 : receiver H t (by_address H t MJson) v ?td' ?w', V : vcall MJson ?td' ?w' None = inl ?r, J : method_json _ MJson ?r _ |- _ =>
          destruct (receiver_det H _ _ _ _ _ _ _ R1 R2) as [<- <-]; assert (r = b) by congruence; subst r; inversion J; subst end. match goal with N : forall j, ~ json_text true j b, X : json_text true _ b |- _ => exact (N _ X) end.
      + match goal with M' : marshaler H t a ?k', B : by_address H t ?k' = false |- _ => assert (k' = MJson) by (eapply marshaler_det; eauto); subst k'; match goal with R1 : receiver H t (by_address H t MJson) VNil td w |- _ => rewrite B in R1; eapply nil_no_receiver; eauto end end.
    - destruct (On eq_refl).
    - destruct (On eq_refl).
  Qed.

  Lemma elems_std e a vs xs : std_elems H vcall html e a vs xs -> forall v, In v vs -> exists x, std e a false v x.
  Proof. intros S. induction vs as [|b vs IH] in xs, S |- *; intros v Hi; [destruct Hi|]. inversion S; subst. destruct Hi as [<-|Hi]; eauto. Qed.
  Lemma entries_std kt et es ks ms : std_entries H vcall html kt et es ks ms -> forall k v, In (k, v) es -> (exists s n, key_string H vcall kt k s /\ string_json html s n) /\ exists x, std et false false v x.
  Proof. intros S. induction es as [|b es IH] in ks, ms, S |- *; intros k v Hi; [destruct Hi|]. inversion S; subst. destruct Hi as [[= <- <-]|Hi]; eauto 7. Qed.
  Lemma fields_std t a v fs ms : std_fields H vcall html t a v fs ms -> forall f ft x, In f fs -> field_value H t v f ft x -> ~ left_out H t v f ->
    exists fa b, (through_pointer H t f -> fa = true) /\ (~ through_pointer H t f -> fa = a) /\ std ft fa (quoted H f ft) x b.
  Proof.
    intros S. induction fs as [|g fs IH] in ms, S |- *; intros f ft x Hi F N; [destruct Hi|]. inversion S; subst.
    - destruct Hi as [->|Hi]; [contradiction | eauto].
    - destruct Hi as [->|Hi]; [|eauto]. match goal with F' : field_value H t v f ?ft' ?x' |- _ => match F' with F => fail 1 | _ => destruct (field_value_det _ _ _ _ _ _ _ _ F' F) as [-> ->] end end. eauto 6.
  Qed.

  Lemma std_child t ca a q v out y : host_ok H vcall -> tyok H t -> std t a q v out -> ordinary H vcall html o (t, ca, q, v) -> agree H o a (t, ca, q, v) -> child H o (t, ca, q, v) y ->
    let '(t', _, q', v') := y in exists a' b, agree H o a' y /\ std t' a' q' v' b.
  Proof.
    intros OK TY S (On & Oa & Om & Ok) Ag C.
    assert (Np : DocSpec.plain H t ca -> no_marshaler H t a /\ kind_ordinary H vcall html o (t, ca, q, v)) by (intros P; apply plain_no_marshaler in P; split; [eapply agree_no_marshaler; eauto | apply Ok, P]).
    assert (C0 := C). inversion C; subst.
    all: try (match goal with P : DocSpec.plain H _ _ |- _ => destruct (Np P) as [Bt O]; cbn [kind_ordinary] in O end).
    all: try (match goal with U : under E _ = _ |- _ => rewrite U in O end).
    - inversion S; subst; try clash. match goal with U : under E t = TPtr e, U' : under E t = TPtr _ |- _ => rewrite U in U'; injection U' as <- end. exists true. eexists. split; [left; reflexivity | eassumption].
    - inversion S; subst; try clash. exists false. eexists. split; [apply agree_held | eassumption].
    - inversion S; subst; try clash.
      + exfalso. match goal with U : under E t = TSlice e, U' : under E t = TSlice _ |- _ => rewrite U in U'; injection U' as <- end.
        match goal with Be : bare H e, Ue : under E e = TInt KUint8, X : byte_elem H e = false |- _ =>
          unfold byte_elem in X; rewrite Ue in X; destruct (bare_impl H e MJson Be) as [_ A1]; [unfold is_ptr; rewrite Ue; reflexivity | cbn; tauto|];
          destruct (bare_impl H e MText Be) as [_ A2]; [unfold is_ptr; rewrite Ue; reflexivity | cbn; tauto|]; rewrite A1, A2 in X; discriminate X end.
      + match goal with U : under E t = TSlice e, U' : under E t = TSlice _ |- _ => rewrite U in U'; injection U' as <- end. match goal with X : std_elems _ _ _ _ _ _ _, I : In _ _ |- _ => destruct (elems_std _ _ _ _ X _ I) as [b Hb] end.
        exists true, b. split; [left; reflexivity | exact Hb].
    - inversion S; subst; try clash. match goal with U : under E t = TArray _ e, U' : under E t = TArray _ _ |- _ => rewrite U in U'; injection U' as <- <- end.
      match goal with X : std_elems _ _ _ _ _ _ _, I : In _ _ |- _ => destruct (elems_std _ _ _ _ X _ I) as [b Hb] end. exists a, b. split; [|exact Hb].
      eapply agree_inner; eauto. unfold is_ptr. match goal with U : under E t = _ |- _ => rewrite U end. reflexivity.
    - inversion S; subst; try clash. match goal with U : under E t = TMap _ _, U' : under E t = TMap _ _ |- _ => rewrite U in U'; injection U' as <- <- end.
      match goal with P : Permutation es ?es', X : std_entries _ _ _ _ _ ?es' _ _ |- _ => destruct (entries_std _ _ _ _ _ X k v0) as [(s & n & Ks & Sn) _]; [eapply Permutation_in; eauto|] end.
      assert (NS : under E kt <> TString) by (match goal with I : isString E kt = false |- _ => intros U; unfold isString in I; rewrite U in I; discriminate I end).
      destruct O as [O|(Kt & _)]; [congruence|]. exists false. destruct Ks as [s U|k td w0 s T R V|T P|n0 l0 I L|g y0 s T Y Yr Tt].
      + contradiction.
      + assert (M : marshaler H kt false MText) by (eapply text_key_marshaler; eauto). exists n. split; [left; reflexivity|]. eapply S_method; eauto; [|apply mj_text; exact Sn]. unfold by_address. rewrite (proj2 (proj2 T)). exact R.
      + exfalso. match goal with X : _ && _ && _ = false |- _ => rewrite P, (proj2 (proj2 T)) in X; discriminate X end.
      + eexists. split; [left; reflexivity|]. destruct I as [I [ik U]]. eapply S_int; eauto. destruct I as [[N F]| ->]; [|right; reflexivity]. left.
        destruct Kt as [X|[M|[(B & _)|[[-> _]|[-> _]]]]]; [contradiction | | apply plain_no_marshaler, B | discriminate | discriminate]. destruct M as (_ & [A|(_ & A & _)] & _); congruence.
      + destruct T as [-> T]. eexists. split; [left; reflexivity|]. eapply S_time; eauto.
    - inversion S; subst; try clash. match goal with U : under E t = TMap _ _, U' : under E t = TMap _ _ |- _ => rewrite U in U'; injection U' as <- <- end.
      match goal with P : Permutation es ?es', X : std_entries _ _ _ _ _ ?es' _ _ |- _ => destruct (entries_std _ _ _ _ _ X k v0) as [_ [b R]]; [eapply Permutation_in; eauto|] end. exists false, b. split; [left; reflexivity | exact R].
    - inversion S; subst; try clash. match goal with S1 : structFields H _ t = Some ?a, S2 : json_fields H t ?b, X : std_fields _ _ _ _ ?aa ?vv ?b ?mm |- _ =>
        assert (std_fields H vcall html t aa vv a mm) by (eapply std_fields_same; [eapply json_fields_same; [exact S2 | eapply json_fields_struct; eauto] | exact X]); clear X end.
      match goal with X : std_fields _ _ _ _ _ _ _ _, W : shown H o t _ f ft ?x |- _ => destruct (fields_std _ _ _ _ _ X f ft x) as (fa & b & T1 & T2 & Sb); [assumption | apply W|..] end.
      { intros L. eapply (shown_not_hidden H o); eauto. eapply (left_out_hidden H o html STD); eauto. eapply O; eauto. }
      exists fa, b. split; [|exact Sb]. destruct (through_dec H t f) as [T|T].
      + rewrite (T1 T). destruct ca; [left; reflexivity|]. right. right. eapply O; eauto. match goal with W : shown H o t _ f ft _ |- _ => apply W end.
      + rewrite (T2 T). eapply agree_inner; eauto. unfold is_ptr. match goal with U : under E t = _ |- _ => rewrite U end. reflexivity.
    - destruct (On eq_refl).
    - destruct (On eq_refl).
  Qed.

  Lemma std_part m x y : host_ok H vcall -> part H o x y -> held H m x -> all_ordinary H vcall html o x -> (let '(t, _, q, v) := x in exists a b, agree H o a x /\ std t a q v b) -> let '(t, _, q, v) := y in exists a b, agree H o a y /\ std t a q v b.
  Proof.
    intros OK. induction 1 as [x|x y z C _ IH]; intros Hx O S; [exact S|]. apply IH; [eapply child_held; eauto | intros w Hw; apply O; eapply part_step; eauto|]. destruct x as [[[t ca] q] v]. destruct S as (a & b & A & S).
    eapply std_child; eauto; [apply Hx | apply O; constructor].
  Qed.
End NoError.

(** ** C58 *)
(** The encoding of an ordinary value under the default options, or with HTML
    escaping switched off, is the text encoding/json gives. *)
Theorem C58_text_partial H vcall m t w v opts o html out : host_ok H vcall -> shortest_ok (h_shortest H) -> sort_ok H -> std_opts html o ->
  call H m t w v opts o -> all_ordinary H vcall html o (t, is_ptr H t, false, v) -> (marshal_returns H m (Some (t, w)) opts (MOk out) <-> std H vcall html t false false v out).
Proof.
  intros OK SH SO So C O. assert (Hh := call_held H vcall OK m t w v opts o C). assert (Ag := agree_held H o t false v).
  assert (F : forall out, marshal_returns H m (Some (t, w)) opts (MOk out) -> std H vcall html t false false v out).
  { intros x R. apply (written H vcall OK SH SO o html So m (S (vsize v)) v ltac:(lia) t (is_ptr H t) false false x Hh O Ag). eapply call_bytes; eauto. }
  split; [apply F|]. intros S. destruct (call_returns H vcall OK m t w v opts o C) as (x & err & Ev & R). destruct err as [e|].
  - exfalso. destruct (encodes_inv _ _ _ _ _ _ _ Ev) as [n En]. destruct (error_raised H vcall o OK n _ _ _ _ _ _ En) as (y & Py & Ry).
    assert (X := std_part H vcall o html So m _ y OK Py Hh O (ex_intro _ false (ex_intro _ out (conj Ag S)))). destruct y as [[[t' ca'] q'] v']. destruct X as (a & b & A & X). eapply std_no_raise; eauto.
  - assert (Rx : marshal_returns H m (Some (t, w)) opts (MOk x)) by (apply R; reflexivity). rewrite (proj1 (std_det H vcall html SH) _ _ _ _ _ S _ (F x Rx)). exact Rx.
Qed.

(** There is at most one such text. *)
Theorem C58_unique H vcall html t a q v out out' : shortest_ok (h_shortest H) -> std H vcall html t a q v out -> std H vcall html t a q v out' -> out = out'.
Proof. intros SH S S'. exact (proj1 (std_det H vcall html SH) t a q v out S out' S'). Qed.

(** When encoding/json gives no text, the call reports an error. *)
Theorem C58_error H vcall m t w v opts o html : host_ok H vcall -> shortest_ok (h_shortest H) -> sort_ok H -> std_opts html o ->
  call H m t w v opts o -> all_ordinary H vcall html o (t, is_ptr H t, false, v) -> (forall out, ~ std H vcall html t false false v out) -> exists e, marshal_returns H m (Some (t, w)) opts (MErr e).
Proof.
  intros OK SH SO So C O N. destruct (call_returns H vcall OK m t w v opts o C) as (x & err & Ev & R). destruct err as [e|].
  - exists e. apply R. reflexivity.
  - exfalso. apply (N x). apply (C58_text_partial H vcall m t w v opts o html x OK SH SO So C O). apply R. reflexivity.
Qed.

(** ** Values that are ordinary by their shape *)
Lemma plain_keys html s s' y y' : no_escapes html s -> no_escapes html s' -> escape_text html s y -> escape_text html s' y' -> lexlt s s' -> lexlt y y'.
Proof.
  intros (rs1 & A1 & A2) (rs2 & B1 & B2) Y1 Y2 L. rewrite (escape_text_det _ _ _ _ Y1 (plain_escape _ _ _ A1 A2)), (escape_text_det _ _ _ _ Y2 (plain_escape _ _ _ B1 B2)). exact L.
Qed.
Lemma digits_no_escapes html s : Forall (fun c => 48 <= c <= 57 \/ c = 45) s -> no_escapes html s.
Proof. intros F. exists s. split; [apply ascii_utf8|]; eapply Forall_impl; try exact F; cbn beta; intros c Hc; repeat split; intros; lia. Qed.
Section Neat.
  Variable H : host.
  Variable vcall : mkind -> typ -> val -> option Z -> bytes + Z.
  Variable html : bool.
  Notation E := (h_env H).

  Inductive neat : typ -> bool -> val -> Prop :=
  | n_bool t q b : bare H t -> under E t = TBool -> neat t q (VBool b)
  | n_int t q k n : bare H t -> under E t = TInt k -> neat t q (VInt n)
  | n_float t q b f : bare H t -> under E t = TFloat b -> neat t q (VFloat f)
  | n_dur n : neat TDuration false (VInt n)
  | n_num s : neat TNumber false (VStr s)
  | n_time q g : (forall y, local_year g y -> 0 <= y <= 9999 -> 1 <= y /\ Z.abs (t_offset g) < 360000) -> neat TTime q (VTime g)
  | n_raw_nil q : neat TRawMessage q VNil
  | n_raw q vs b j : vbytes vs = Some b -> json_text true j b -> neat TRawMessage q (VSlice vs)
  | n_json t q v : native t = false -> steady H t -> ~ available H t false MCtx -> ~ available H t false MApp -> available H t false MJson -> neat t q v
  | n_text t q v : native t = false -> steady H t -> ~ available H t false MCtx -> ~ available H t false MApp -> ~ available H t false MJson -> available H t false MText ->
      (forall td w r, receiver H t (by_address H t MText) v td w -> vcall MText td w None = inl r -> no_escapes html r) -> neat t q v
  | n_str t s : bare H t -> under E t = TString -> neat t false (VStr s)
  | n_qstr t s : bare H t -> under E t = TString -> no_escapes html s -> neat t true (VStr s)
  | n_nil t q : bare H t -> match under E t with TPtr _ | TIface _ => True | TMap kt _ => key_type H kt | TSlice e => under E e = TInt KUint8 -> bare H e | _ => False end -> neat t q VNil
  | n_ptr t q e v : bare H t -> under E t = TPtr e -> neat e q v -> neat t q (VPtr v)
  | n_iface t q td v : bare H t -> under E t = TIface None -> neat td false v -> neat t q (VIface td v)
  | n_bytes t q e vs : bare H t -> under E t = TSlice e -> bare H e -> under E e = TInt KUint8 -> neat t q (VSlice vs)
  | n_slice t q e vs : bare H t -> under E t = TSlice e -> under E e <> TInt KUint8 -> (forall v, In v vs -> neat e false v) -> neat t q (VSlice vs)
  | n_arr t q n e vs : bare H t -> under E t = TArray n e -> (forall v, In v vs -> neat e false v) -> neat t q (VArr vs)
  | n_map t q kt et es : bare H t -> under E t = TMap kt et -> under E kt = TString -> NoDup (map fst es) -> (forall k v, In (k, v) es -> (exists s, k = VStr s /\ no_escapes html s) /\ neat et false v) -> neat t q (VMap es)
  | n_imap t q kt et k es : bare H t -> under E t = TMap kt et -> bare H kt \/ kt = TDuration /\ h_impl H kt MText = false -> under E kt = TInt k -> NoDup (map fst es) -> (forall k v, In (k, v) es -> (exists n, k = VInt n) /\ neat et false v) -> neat t q (VMap es)
  | n_tmap t q kt et es : bare H t -> under E t = TMap kt et -> under E kt <> TString -> native kt = false -> h_impl H kt MText = true -> h_impl H kt MJson = false -> NoDup (map fst es) -> keys_apart H vcall kt es ->
      (forall k v, In (k, v) es -> (k = VNil -> is_ptr H kt = true) /\ neat kt false k /\ neat et false v) -> neat t q (VMap es)
  | n_zmap t q et es : bare H t -> under E t = TMap TTime et -> h_impl H TTime MText = true -> NoDup (map fst es) -> keys_apart H vcall TTime es ->
      (forall k v, In (k, v) es -> (exists g, k = VTime g) /\ neat TTime false k /\ neat et false v) -> neat t q (VMap es)
  | n_struct t q fs0 n fs vs : bare H t -> under E t = TStruct fs0 -> structFields H n t = Some fs -> (forall f, In f fs -> f_omitNil f = false) ->
      (forall f ft x, In f fs -> field_value H t (VStruct vs) f ft x -> neat ft (quoted H f ft) x) -> neat t q (VStruct vs).

  Lemma bare_available t a k : bare H t -> ~ available H t a k.
  Proof. intros B. destruct (B a) as [_ M]. apply method_none in M. apply M. Qed.
  Lemma steady_available t a k : native t = false -> steady H t -> (available H t a k <-> available H t false k).
  Proof.
    intros Nt [X|X]; [congruence|]. destruct a; [|reflexivity]. split; [apply X|]. intros [A|(_ & A & _)]; [left; exact A | discriminate].
  Qed.
  Lemma neat_steady t q v : neat t q v -> steady H t.
  Proof. intros N. destruct N; try (right; intros k' A; exfalso; match goal with B : bare H ?t, X : available H ?t _ _ |- _ => exact (bare_available t _ _ B X) end); try (left; reflexivity); assumption. Qed.

  Lemma neat_method t ca q v y o : native t = false -> available H t ca MJson \/ available H t ca MText -> ~ child H o (t, ca, q, v) y.
  Proof.
    intros Nt A C. assert (P : DocSpec.plain H t ca \/ native t = true) by (inversion C; subst; auto). destruct P as [[_ P]|P]; [|congruence]. apply method_none in P. destruct A as [A|A]; eapply P; eauto.
  Qed.
  Ltac bare_case := match goal with B : bare H ?t |- _ => split; [intros X; destruct (B true); congruence|]; split; [intros _; split; apply bare_available; exact B|];
    split; [intros M; exfalso; destruct M as (_ & M & _); exact (bare_available _ _ _ B M)|]; intros _; cbn [kind_ordinary] end.

  Lemma neat_child o t ca q v y : neat t q v -> child H o (t, ca, q, v) y -> let '(t', _, q', v') := y in neat t' q' v'.
  Proof.
    intros N C. destruct (native t) eqn:Nt.
    { inversion C; subst; try (match goal with P : DocSpec.plain H _ _ |- _ => destruct P; congruence end); inversion N; subst; try congruence. }
    assert (NM : steady H t -> available H t false MJson \/ available H t false MText -> False).
    { intros S A. eapply (neat_method t ca q v y o Nt); [|exact C]. rewrite !(steady_available t ca _ Nt S). exact A. }
    inversion C; subst; try discriminate Nt; inversion N; subst; try discriminate; try (exfalso; auto; fail);
      repeat match goal with U : under E t = ?a, U' : under E t = ?b |- _ => rewrite U in U'; try discriminate U'; injection U' as; subst end; auto.
    - exfalso. match goal with Be : bare H ?e, Ue : under E ?e = TInt KUint8, X : byte_elem H ?e = false |- _ =>
        unfold byte_elem in X; rewrite Ue in X; destruct (bare_impl H e MJson Be) as [_ A1]; [unfold is_ptr; rewrite Ue; reflexivity | cbn; tauto|];
        destruct (bare_impl H e MText Be) as [_ A2]; [unfold is_ptr; rewrite Ue; reflexivity | cbn; tauto|]; rewrite A1, A2 in X; discriminate X end.
    - exfalso. match goal with I : isString E ?kt = false, U : under E ?kt = TString |- _ => unfold isString in I; rewrite U in I; discriminate I end.
    - match goal with G : forall k v, In (k, v) es -> _, I : In (?k, ?x) es |- _ => destruct (G k x I) as [[n ->] _] end. match goal with B : bare H _ \/ _ |- _ => destruct B as [B|[-> B]] end; [eapply n_int; eauto | apply n_dur].
    - match goal with G : forall k v, In (k, v) es -> _, I : In (?k, ?x) es |- _ => apply (G k x I) end.
    - match goal with G : forall k v, In (k, v) es -> _, I : In (?k, ?x) es |- _ => apply (G k x I) end.
    - match goal with G : forall k v, In (k, v) es -> _, I : In (?k, ?x) es |- _ => apply (G k x I) end.
    - match goal with G : forall k v, In (k, v) es -> _, I : In (?k, ?x) es |- _ => apply (G k x I) end.
    - match goal with G : forall k v, In (k, v) es -> _, I : In (?k, ?x) es |- _ => apply (G k x I) end.
    - match goal with G : forall k v, In (k, v) es -> _, I : In (?k, ?x) es |- _ => apply (G k x I) end.
    - match goal with S1 : structFields H _ t = Some ?a, S2 : structFields H _ t = Some ?b |- _ => assert (a = b) by (eapply structFields_det; eassumption); subst end.
      match goal with G : forall f ft x, In f _ -> _ |- _ => apply G; [assumption|] end. match goal with W : shown H o t _ _ _ _ |- _ => apply W end.
  Qed.

  Lemma neat_part o x y : part H o x y -> (let '(t, _, q, v) := x in neat t q v) -> let '(t, _, q, v) := y in neat t q v.
  Proof. induction 1 as [x|x y z C _ IH]; intros N; [exact N|]. apply IH. destruct x as [[[t ca] q] v]. eapply neat_child; eauto. Qed.
  Lemma neat_all_steady o t ca q v : neat t q v -> all_steady H o (t, ca, q, v).
  Proof. intros N t' ca' q' v' P. eapply neat_steady. exact (neat_part o _ _ P N). Qed.

  Lemma neat_text kt k td w s : neat kt false k -> marshaler H kt false MText -> receiver H kt (by_address H kt MText) k td w -> vcall MText td w None = inl s -> no_escapes html s.
  Proof.
    intros N M R V. destruct M as (Nt & A & [X|[_ NJ]]); [discriminate|]. inversion N; subst; try discriminate Nt; try (exfalso; match goal with B : bare H _ |- _ => exact (bare_available _ _ _ B A) end); [contradiction | eauto].
  Qed.
  Lemma neat_ordinary o t ca q v : neat t q v -> ordinary H vcall html o (t, ca, q, v).
  Proof.
    intros N. destruct N; try (bare_case; try (match goal with U : under E t = _ |- _ => rewrite U end); try exact I; try discriminate; auto; fail).
    - split; [intros _; reflexivity|]. split; [discriminate|]. split; [intros [X _]; discriminate | intros [X _]; discriminate].
    - split; [intros _; reflexivity|]. split; [discriminate|]. split; [intros [X _]; discriminate | intros [X _]; discriminate].
    - split; [intros _; assumption|]. split; [discriminate|]. split; [intros [X _]; discriminate | intros [X _]; discriminate].
    - split; [intros _; exact I|]. split; [discriminate|]. split; [intros [X _]; discriminate | intros [X _]; discriminate].
    - split; [intros _; cbn [native_ordinary]; eauto|]. split; [discriminate|]. split; [intros [X _]; discriminate | intros [X _]; discriminate].
    - match goal with Nt : native t = false, S : steady H t |- _ => assert (A := fun k => steady_available t ca k Nt S) end.
      split; [congruence|]. split; [intros _; rewrite !A; auto|]. split; [intros (_ & _ & [X|[_ X]]); [discriminate | rewrite A in X; contradiction]|]. intros (_ & X & _). rewrite A in X. contradiction.
    - match goal with Nt : native t = false, S : steady H t |- _ => assert (A := fun k => steady_available t ca k Nt S) end.
      split; [congruence|]. split; [intros _; rewrite !A; auto|]. split; [intros _; assumption|]. intros (_ & _ & X). rewrite A in X. contradiction.
    - bare_case. match goal with G : match under E t with _ => _ end |- _ => revert G end. destruct (under E t) as [| | | | | | | |im| | | | | | | | | | |]; try tauto. destruct im; tauto.
    - bare_case. match goal with U : under E t = _ |- _ => rewrite U end. intros; contradiction.
    - bare_case. match goal with U : under E t = _ |- _ => rewrite U end.
      match goal with G : forall k v, In (k, v) es -> _ |- _ => assert (K := fun k v I => proj1 (G k v I)) end.
      assert (T : forall k v s, In (k, v) es -> key_string H vcall kt k s -> k = VStr s /\ no_escapes html s).
      { intros k v s I1 Ks. destruct (K k v I1) as (s1 & -> & A). inversion Ks; subst; [split; [reflexivity | exact A]|]. match goal with T : text_key H kt |- _ => destruct T; contradiction end. }
      right. split; [left; assumption|]. split; [intros k x I1 ->; destruct (K _ _ I1) as (? & X & _); discriminate X|]. split; [assumption|].
      split; [intros k x k' x' s I1 I2 K1 K2; destruct (T _ _ _ I1 K1) as [-> _]; destruct (T _ _ _ I2 K2) as [-> _]; reflexivity|].
      intros k x k' x' s s' y y' I1 I2 K1 K2. apply plain_keys; [exact (proj2 (T _ _ _ I1 K1)) | exact (proj2 (T _ _ _ I2 K2))].
    - bare_case. match goal with U : under E t = _ |- _ => rewrite U end.
      match goal with G : forall k v, In (k, v) es -> _ |- _ => assert (KK := fun k v I => proj1 (G k v I)) end.
      match goal with B : bare H kt \/ _, U : under E kt = TInt _ |- _ => rename B into Bk; rename U into Uk end.
      assert (T : forall k v s, In (k, v) es -> key_string H vcall kt k s -> exists n, k = VInt n /\ int_lit s n).
      { intros k1 v s I1 Ks. destruct (KK k1 v I1) as (n1 & ->). inversion Ks as [|? td w ? Tk| |? ? Ik L|]; subst; [|exists n1; split; [reflexivity | exact L]].
        exfalso. destruct Tk as (_ & Nk & Tk). destruct Bk as [Bk|[-> _]]; [|discriminate Nk]. destruct (bare_impl H kt MText Bk) as [X _]; [unfold is_ptr; rewrite Uk; reflexivity | cbn; tauto | congruence]. }
      right. split; [destruct Bk as [Bk|Bk]; [right; right; left; eauto | right; right; right; left; exact Bk]|]. split; [intros k1 x I1 ->; destruct (KK _ _ I1) as (? & X); discriminate X|]. split; [assumption|].
      split; [intros k1 x k' x' s I1 I2 K1 K2; destruct (T _ _ _ I1 K1) as (n1 & -> & L1); destruct (T _ _ _ I2 K2) as (n2 & -> & L2); f_equal; eapply int_lit_det; eauto|].
      intros k1 x k' x' s s' y y' I1 I2 K1 K2. destruct (T _ _ _ I1 K1) as (n1 & -> & L1); destruct (T _ _ _ I2 K2) as (n2 & -> & L2).
      apply plain_keys; eapply digits_no_escapes, int_lit_chars; eauto.
    - bare_case. match goal with U : under E t = _ |- _ => rewrite U end.
      match goal with G : forall k v, In (k, v) es -> _ |- _ => assert (K := fun k v I => G k v I) end.
      match goal with A : h_impl H kt MText = true, B : h_impl H kt MJson = false |- _ => rename A into Ht; rename B into Hj end.
      assert (M : marshaler H kt false MText) by (split; [assumption|]; split; [left; exact Ht | right; split; [reflexivity|]; intros [X|(_ & X & _)]; congruence]).
      assert (T : forall k v s, In (k, v) es -> key_string H vcall kt k s -> no_escapes html s).
      { intros k1 v s I1 Ks. destruct (K k1 v I1) as (_ & Nk & _). inversion Ks as [? U|? td w ? Tk R V|Tk P|? ? Ik L|? ? ? Tk]; subst.
        - contradiction.
        - assert (O := neat_text kt k1 td w s Nk M). unfold by_address in O. rewrite Ht in O. cbn [negb] in O. apply O; assumption.
        - exists []. split; constructor.
        - destruct (text_key_only H kt) as (_ & X & _); [split; [|split]; assumption | contradiction].
        - destruct (text_key_only H kt) as (_ & _ & X); [split; [|split]; assumption | contradiction]. }
      right. split; [right; left; exact M|]. split; [intros k1 x I1; apply (K _ _ I1)|]. split; [assumption|]. split; [assumption|].
      intros k1 x k' x' s s' y y' I1 I2 K1 K2. apply plain_keys; [exact (T _ _ _ I1 K1) | exact (T _ _ _ I2 K2)].
    - bare_case. match goal with U : under E t = _ |- _ => rewrite U end.
      match goal with G : forall k v, In (k, v) es -> _ |- _ => assert (K := fun k v I => G k v I) end.
      assert (T : forall k v s, In (k, v) es -> key_string H vcall TTime k s -> no_escapes html s).
      { intros k1 v s I1 Ks. destruct (K k1 v I1) as ([g ->] & _). inversion Ks as [|? td w ? Tk| | |? y ? Tk Y Yr Tt]; subst; [destruct Tk as (_ & X & _); discriminate X|].
        destruct (time_text_plain _ _ _ Tt) as (s' & Es & Fs). apply app_inv_head in Es. apply app_inv_tail in Es. subst s'.
        exists s. split; [apply ascii_utf8|]; eapply Forall_impl; try exact Fs; cbn beta; intros c Hc; repeat split; intros; lia. }
      right. split; [right; right; right; right; split; [reflexivity | assumption]|]. split; [intros k1 x I1 ->; destruct (K _ _ I1) as ([g X] & _); discriminate X|]. split; [assumption|]. split; [assumption|].
      intros k1 x k' x' s s' y y' I1 I2 K1 K2. apply plain_keys; [exact (T _ _ _ I1 K1) | exact (T _ _ _ I2 K2)].
    - bare_case. match goal with U : under E t = _ |- _ => rewrite U end. intros k fs' f S' Hf. match goal with S0 : structFields H _ t = Some fs |- _ => rewrite (structFields_det H _ _ _ _ _ S' S0) in Hf end.
      split; [auto|]. intros _ _ ft x F. apply neat_all_steady. auto.
  Qed.
  Lemma neat_all o t ca q v : neat t q v -> all_ordinary H vcall html o (t, ca, q, v).
  Proof. intros N y Hy. assert (X := neat_part o _ y Hy N). destruct y as [[[t' ca'] q'] v']. apply neat_ordinary, X. Qed.
End Neat.

(** Values whose map keys, quoted strings and MarshalText results need no
    escape, and whose methods do not depend on addressability. *)
Corollary C58_neat H vcall m t w v opts o html out : host_ok H vcall -> shortest_ok (h_shortest H) -> sort_ok H -> std_opts html o ->
  call H m t w v opts o -> neat H vcall html t false v -> (marshal_returns H m (Some (t, w)) opts (MOk out) <-> std H vcall html t false false v out).
Proof. intros OK SH SO So C N. eapply C58_text_partial; eauto. apply neat_all, N. Qed.

(** ** What is missing: false of the code for map keys and quoted strings
    with characters that are escaped *)
Definition plainly (H : host) (o : encOpts) (x : node) : Prop := forall t ca q v, part H o x (t, ca, q, v) -> bare H t.
Lemma map_bare t : native t = false -> bare mapH t.
Proof. intros Hn ca. split; [exact Hn|]. unfold method_of. cbn. destruct ca, (is_ptr mapH t); reflexivity. Qed.
Lemma nl_plainly : plainly mapH default_opts (tmap, is_ptr mapH tmap, false, nl_v).
Proof.
  intros t ca q v Hp. apply map_bare.
  assert (G : forall x y, part mapH default_opts x y -> (let '(t, _, _, _) := x in t = tmap \/ t = TString \/ t = TInt KInt) -> let '(t, _, _, _) := y in t = tmap \/ t = TString \/ t = TInt KInt).
  { induction 1 as [|x y z C _ IH]; [auto|]. intros Px. apply IH. destruct C as [? ? ? ? ? _ U|? ? ? ? ? _ U|? ? ? ? ? ? _ U|? ? ? ? ? ? ? _ U|? ? ? ? ? ? ? ? _ U|? ? ? ? ? ? ? ? _ U|? ? ? ? ? ? ? ? ? ? _ U| |]; destruct Px as [Px|[Px|Px]]; try discriminate Px; subst; try discriminate; injection U as <- <-; auto. }
  assert (X := G _ _ Hp (or_introl eq_refl)). destruct X as [-> |[-> | ->]]; reflexivity.
Qed.
(** encoding/json gives {"\n":1,"A":2}. *)
Lemma nl_std : std mapH plainV true tmap false false nl_v (bs "{""~n"":1,""A"":2}").
Proof.
  apply (S_map mapH plainV true tmap false false TString (TInt KInt) _ nl_es [[10]; lit "A"] [bs """~n"":1"; lit """A"":2"]);
    [apply plain_no_marshaler, map_bare; reflexivity | reflexivity | left; reflexivity | apply Permutation_refl | | ].
  - apply (SM_cons _ _ _ _ _ _ [10] (bs """~n""") _ (lit "1")); [apply ks_str; reflexivity | exists (bs "~n"); split; [|reflexivity] | eapply S_int; [left; apply plain_no_marshaler, map_bare; reflexivity | reflexivity | apply (il_pos [49]); [apply (jint_pos 49 []); [lia | constructor] | discriminate]] |].
    + exists [inl 10]. split; [apply (sg_rune 10 [] []); [left; lia | constructor]|]. apply (st_cons _ _ _ _ (bs "~n") []); [apply ct_newline | constructor].
    + apply (SM_cons _ _ _ _ _ _ (lit "A") (lit """A""") _ (lit "2")); [apply ks_str; reflexivity | exists (lit "A"); split; [|reflexivity] | eapply S_int; [left; apply plain_no_marshaler, map_bare; reflexivity | reflexivity | apply (il_pos [50]); [apply (jint_pos 50 []); [lia | constructor] | discriminate]] | constructor].
      apply (plain_escape true [65] [65]); [apply ascii_utf8; repeat constructor; lia|]. constructor; [|constructor]. repeat split; intros; lia.
  - repeat constructor; try discriminate; lia.
Qed.
Theorem C58_text_refuted : ~ (forall H vcall m t w v opts o html out, host_ok H vcall -> shortest_ok (h_shortest H) -> sort_ok H -> std_opts html o ->
  call H m t w v opts o -> plainly H o (t, is_ptr H t, false, v) -> (marshal_returns H m (Some (t, w)) opts (MOk out) <-> std H vcall html t false false v out)).
Proof.
  intros G. assert (X := proj1 (G mapH plainV _ tmap _ nl_v [] default_opts true (bs "{""A"":2,""~n"":1}") map_ok ex_shortest (constH_sort _ _ _) ltac:(repeat split) nl_call nl_plainly) nl_out).
  assert (Y := C58_unique mapH plainV true _ _ _ _ _ _ ex_shortest X nl_std). vm_compute in Y. discriminate.
Qed.

(** ** Concrete case *)
(** struct{ A int `json:"a,string"`; B *string `json:"b,string"`; C map[int]interface{};
    D []byte `json:",omitempty"`; E time.Duration; F string; G float64 } *)
Definition sd_fs : list (fdecl * typ) :=
  [fld "A" "a,string" (TInt KInt); fld "B" "b,string" (TPtr TString); fld "C" "" (TMap (TInt KInt) (TIface None)); fld "D" ",omitempty" (TSlice (TInt KUint8)); fld "E" "" TDuration; fld "F" "" TString; fld "G" "" (TFloat true)].
Definition sd_t : typ := TStruct sd_fs.
Definition sd_v : val := VStruct [VInt (-7); VPtr (VStr (lit "x")); VMap [(VInt 9, VNil); (VInt 10, VIface TString (VStr (lit "y")))]; VSlice []; VInt 5; VStr (lit "<" ++ [10]); VFloat tenth].
Lemma sd_call : call flH (mem_of flH sd_t sd_v) sd_t (word_of flH sd_t sd_v) sd_v [] default_opts.
Proof. apply (fl_call 10); vm_compute; reflexivity. Qed.
Lemma sd_neat : neat flH fl_vcall true sd_t false sd_v.
Proof.
  assert (S : exists fs, structFields flH 5%nat sd_t = Some fs /\ map (fun f => (f_index f, f_omitNil f, f_quoted f)) fs = map (fun i => ([i], false, (i <? 2)%nat)) (seq 0 7)) by (eexists; split; vm_compute; reflexivity).
  destruct S as (fs & S & Hf).
  assert (G : forall f, In f fs -> exists i, (i < 7)%nat /\ f_index f = [i] /\ f_omitNil f = false /\ f_quoted f = (i <? 2)%nat).
  { intros f Hi. apply (List.in_map (fun f => (f_index f, f_omitNil f, f_quoted f))) in Hi. rewrite Hf in Hi. apply List.in_map_iff in Hi. destruct Hi as (i & Ei & Hs). apply in_seq in Hs. injection Ei as E1 E2 E3. exists i. repeat split; auto; lia. }
  eapply n_struct; [apply ls_bare; reflexivity | reflexivity | exact S | intros f Hi; destruct (G f Hi) as (i & _ & _ & N & _); exact N|].
  intros f ft x Hi [V1 V2]. destruct (G f Hi) as (i & Li & Ei & _ & Qi). rewrite Ei in V1, V2. unfold quoted. rewrite Qi. clear - Li V1 V2.
  destruct i as [|[|[|[|[|[|[|i]]]]]]]; try lia; injection V1 as <-; injection V2 as <-.
  - eapply n_int; [apply ls_bare; reflexivity | reflexivity].
  - eapply n_ptr; [apply ls_bare; reflexivity | reflexivity|]. apply n_qstr; [apply ls_bare; reflexivity | reflexivity|].
    exists [120]. split; [apply (ascii_utf8 [120]); repeat constructor; lia | constructor; [|constructor]; repeat split; intros; lia].
  - eapply n_imap; [apply ls_bare; reflexivity | reflexivity | left; apply ls_bare; reflexivity | reflexivity | repeat constructor; cbn; intuition discriminate|].
    intros k v Hk. destruct Hk as [[= <- <-]|[[= <- <-]|[]]]; (split; [eauto|]); [apply n_nil; [apply ls_bare; reflexivity | exact I]|].
    apply n_iface; [apply ls_bare; reflexivity | reflexivity|]. apply n_str; [apply ls_bare; reflexivity | reflexivity].
  - eapply n_bytes; [apply ls_bare; reflexivity | reflexivity | apply ls_bare; reflexivity | reflexivity].
  - apply n_dur.
  - apply n_str; [apply ls_bare; reflexivity | reflexivity].
  - eapply n_float; [apply ls_bare; reflexivity | reflexivity].
Qed.
Example C58_example : std flH fl_vcall true sd_t false false sd_v (bs "{""a"":""-7"",""b"":""~""x~"""",""C"":{""10"":""y"",""9"":null},""E"":5,""F"":""~u003c~n"",""G"":-0.1}").
Proof.
  apply (C58_neat flH fl_vcall _ sd_t _ sd_v [] default_opts true _ fl_ok (proj1 shortest_dec_exact) (constH_sort [] (fun _ _ => false) (fun _ _ _ => inl l_null)) ltac:(repeat split) sd_call sd_neat).
  exists 12%nat. split; [vm_compute; reflexivity | discriminate].
Qed.
(** ... and no other text is returned. *)
Example C58_example_only out : marshal_returns flH (mem_of flH sd_t sd_v) (Some (sd_t, word_of flH sd_t sd_v)) [] (MOk out) <->
  out = bs "{""a"":""-7"",""b"":""~""x~"""",""C"":{""10"":""y"",""9"":null},""E"":5,""F"":""~u003c~n"",""G"":-0.1}".
Proof.
  rewrite (C58_neat flH fl_vcall _ sd_t _ sd_v [] default_opts true _ fl_ok (proj1 shortest_dec_exact) (constH_sort [] (fun _ _ => false) (fun _ _ _ => inl l_null)) ltac:(repeat split) sd_call sd_neat).
  split; [|intros ->; exact C58_example]. intros S. exact (C58_unique flH fl_vcall true _ _ _ _ _ _ (proj1 shortest_dec_exact) S C58_example).
Qed.

(** A quoted string with a line feed: struct{ A string `json:",string"` }.
    encoding/json escapes it twice, the code once. *)
Definition qs_t : typ := TStruct [fld "A" ",string" TString].
Definition qs_v : val := VStruct [VStr [10]].
Lemma qs_std : std mapH plainV true qs_t false false qs_v (bs "{""A"":""~""~~n~""""}").
Proof.
  assert (S : exists f, structFields mapH 5%nat qs_t = Some [f] /\ f_index f = [0%nat] /\ f_omitEmpty f = false /\ f_quoted f = true /\ f_name f = [65]) by (eexists; split; vm_compute; [reflexivity | auto]).
  destruct S as (f & S & Fi & Fe & Fq & Fn). eapply (S_struct mapH plainV true qs_t false false _ [f] _ [bs """A"":""~""~~n~""""" ]); [apply plain_no_marshaler, map_bare; reflexivity | reflexivity | eapply json_fields_struct; [exact map_ok | apply declb_ok; vm_compute; reflexivity | exact S]|].
  assert (V : field_value mapH qs_t qs_v f TString (VStr [10])) by (split; rewrite Fi; reflexivity).
  apply (SF_show _ _ _ _ _ _ f TString false (VStr [10]) (lit """A""") (bs """~""~~n~"""""));
    [exact V | intros [C|(ft & x & _ & C & _)]; [rewrite Fi in C; discriminate | congruence] | rewrite Fn; exists (lit "A"); split; [apply (plain_escape true [65] [65]); [apply ascii_utf8; repeat constructor; lia | constructor; [|constructor]; repeat split; intros; lia] | reflexivity] | intros (p & i & q & u & Ei & Np & _); rewrite Fi in Ei; destruct p as [|? [|? ?]]; [congruence | discriminate | discriminate] | reflexivity | | constructor].
  unfold quoted. rewrite Fq. apply (S_quoted_str _ _ _ _ _ _ (bs """~n""")); [apply plain_no_marshaler, map_bare; reflexivity | reflexivity | exists (bs "~n"); split; [|reflexivity] | exists (bs "~""~~n~"""); split; [|reflexivity]].
  - exists [inl 10]. split; [apply (sg_rune 10 [] []); [left; lia | constructor]|]. apply (st_cons _ _ _ _ (bs "~n") []); [apply ct_newline | constructor].
  - exists (map inl [34; 92; 110; 34]). split; [apply valid_utf8_segments, (ascii_utf8 [34; 92; 110; 34]); repeat constructor; lia|].
    apply (st_cons _ _ _ _ (bs "~""")); [apply ct_quote|]. apply (st_cons _ _ _ _ (bs "~~")); [apply ct_backslash|]. apply (st_cons _ _ _ _ (utf8 110)); [apply ct_other; try lia; intros _; lia|]. apply (st_cons _ _ _ _ (bs "~""") []); [apply ct_quote | constructor].
Qed.
Example C58_quoted : marshal_returns mapH (mem_of mapH qs_t qs_v) (Some (qs_t, word_of mapH qs_t qs_v)) [] (MOk (bs "{""A"":""~""~n~""""}")) /\ ~ std mapH plainV true qs_t false false qs_v (bs "{""A"":""~""~n~""""}").
Proof.
  split; [exists 12%nat; split; [vm_compute; reflexivity | discriminate]|]. intros S. assert (Y := C58_unique mapH plainV true _ _ _ _ _ _ ex_shortest S qs_std). vm_compute in Y. discriminate.
Qed.

(** Times, raw messages and methods: struct{ T time.Time; R json.RawMessage; J
    *C; U U } where *C has MarshalJSON and U has MarshalText. *)
Definition md_t : typ := TStruct [fld "T" "" TTime; fld "R" "" TRawMessage; fld "J" "" (TPtr (TNamed 0)); fld "U" "" (TNamed 8); fld "N" "" (TPtr (TNamed 0))].
Definition md_v : val := VStruct [VTime (mkTime 1600000000 120000000 19800); VSlice (map VInt (lit "{ ""<"" : 1 }")); VPtr (VInt 5); VInt 3; VNil].
Definition md_out : bytes := bs "{""T"":""2020-09-13T17:56:40.12+05:30"",""R"":{""~u003c"":1},""J"":[1],""U"":""ab"",""N"":null}".
Lemma md_call : call mtH (mt_m md_t md_v) md_t (mt_w md_t md_v) md_v [] default_opts.
Proof. mt_call. Qed.
Lemma md_neat : neat mtH mtV true md_t false md_v.
Proof.
  assert (S : exists fs, structFields mtH 5%nat md_t = Some fs /\ map (fun f => (f_index f, f_omitNil f, f_quoted f)) fs = map (fun i => ([i], false, false)) (seq 0 5)) by (eexists; split; vm_compute; reflexivity).
  destruct S as (fs & S & Hf).
  assert (G : forall f, In f fs -> exists i, (i < 5)%nat /\ f_index f = [i] /\ f_omitNil f = false /\ f_quoted f = false).
  { intros f Hi. apply (List.in_map (fun f => (f_index f, f_omitNil f, f_quoted f))) in Hi. rewrite Hf in Hi. apply List.in_map_iff in Hi. destruct Hi as (i & Ei & Hs). apply in_seq in Hs. injection Ei as E1 E2 E3. exists i. repeat split; auto; lia. }
  assert (B : bare mtH md_t) by (intros ca; split; [reflexivity | destruct ca; vm_compute; reflexivity]).
  eapply n_struct; [exact B | reflexivity | exact S | intros f Hi; destruct (G f Hi) as (i & _ & _ & N & _); exact N|].
  assert (St : forall t, is_ptr mtH t = true -> steady mtH t) by (intros t P; right; intros k [A|(A & _)]; [left; exact A | congruence]).
  intros f ft x Hi [V1 V2]. destruct (G f Hi) as (i & Li & Ei & _ & Qi). rewrite Ei in V1, V2. unfold quoted. rewrite Qi. clear - Li V1 V2 St.
  destruct i as [|[|[|[|[|i]]]]]; try lia; injection V1 as <-; injection V2 as <-; cbn [andb].
  - apply n_time. intros y Hy _. apply local_year_iff in Hy. subst y. vm_compute. split; [discriminate | reflexivity].
  - assert (X : exists j, parse_json (lit "{ ""<"" : 1 }") = Some j) by (eexists; vm_compute; reflexivity). destruct X as (j & X). apply (n_raw _ _ _ _ _ (lit "{ ""<"" : 1 }") j); [reflexivity|]. apply parse_json_correct; [apply lit_bytes | exact X].
  - apply n_json; [reflexivity | apply St; reflexivity | intros [A|(A & _)]; discriminate | intros [A|(A & _)]; discriminate | left; reflexivity].
  - apply n_text; [reflexivity | right; intros k [A|(_ & _ & A)]; left; [exact A | destruct k; try discriminate A; reflexivity] | intros [A|(_ & A & _)]; discriminate | intros [A|(_ & A & _)]; discriminate | intros [A|(_ & A & _)]; discriminate | left; reflexivity|].
    intros td w r R. inversion R; subst. intros [= <-]. exists [97; 98]. split; [apply (ascii_utf8 [97; 98]); repeat constructor; lia | repeat constructor; intros; lia].
  - apply n_json; [reflexivity | apply St; reflexivity | intros [A|(A & _)]; discriminate | intros [A|(A & _)]; discriminate | left; reflexivity].
Qed.
Example C58_methods_only out : std mtH mtV true md_t false false md_v out <-> out = md_out.
Proof.
  assert (X : forall out, marshal_returns mtH (mt_m md_t md_v) (Some (md_t, mt_w md_t md_v)) [] (MOk out) <-> std mtH mtV true md_t false false md_v out)
    by (intros x; apply (C58_neat mtH mtV _ md_t _ md_v [] default_opts true x mt_ok ex_shortest mt_sort ltac:(repeat split) md_call md_neat)).
  assert (R : marshal_returns mtH (mt_m md_t md_v) (Some (md_t, mt_w md_t md_v)) [] (MOk md_out)) by mt_run.
  apply X in R. split; [|intros ->; exact R]. intros S. exact (C58_unique mtH mtV true _ _ _ _ _ _ ex_shortest S R).
Qed.
(** Map keys: map[*U]map[time.Time]map[time.Duration]string where *U has
    MarshalText; the text of a nil pointer is empty. *)
Definition ky_t : typ := TMap (TPtr (TNamed 8)) (TMap TTime (TMap TDuration TString)).
Definition ky_v : val := VMap [(VPtr (VInt 3), VMap [(VTime (mkTime 0 0 0), VMap [(VInt 9, VStr []); (VInt (-10), VStr (lit "<"))])]); (VNil, VNil)].
Definition ky_out : bytes := bs "{"""":null,""ab"":{""1970-01-01T00:00:00Z"":{""-10"":""~u003c"",""9"":""""}}}".
Lemma ky_neat : neat mtH mtV true ky_t false ky_v.
Proof.
  assert (B : forall t, native t = false -> mt_impl t MText || mt_impl t MJson || mt_impl t MCtx || mt_impl t MApp || mt_impl (TPtr t) MText || mt_impl (TPtr t) MJson || mt_impl (TPtr t) MCtx || mt_impl (TPtr t) MApp = false -> bare mtH t).
  { intros t N I ca. split; [exact N|]. repeat (apply orb_false_iff in I; destruct I as [I ?]). unfold method_of. cbn [pick h_impl mtH constH]. repeat match goal with X : mt_impl _ _ = false |- _ => rewrite X; clear X end. rewrite !andb_false_r. reflexivity. }
  assert (T : forall v, neat mtH mtV true (TPtr (TNamed 8)) false v).
  { intros v. apply n_text; [reflexivity | right; intros k [A|(A & _)]; [left; exact A | discriminate A] | intros [A|(A & _)]; discriminate | intros [A|(A & _)]; discriminate | intros [A|(A & _)]; discriminate | left; reflexivity|].
    intros td w r R. inversion R; subst; try discriminate. intros [= <-]. exists [97; 98]. split; [apply (ascii_utf8 [97; 98]); repeat constructor; lia | repeat constructor; intros; lia]. }
  eapply n_tmap; [apply B; reflexivity | reflexivity | discriminate | reflexivity | reflexivity | reflexivity | repeat constructor; cbn; intuition discriminate | |].
  - intros k x k' x' s [[= <- <-]|[[= <- <-]|[]]] [[= <- <-]|[[= <- <-]|[]]] K1 K2; try reflexivity; exfalso; inversion K1; subst; try congruence; inversion K2; subst; try congruence;
      repeat match goal with R : receiver _ _ _ _ _ _ |- _ => inversion R; subst; clear R end; try congruence; try discriminate; match goal with X : _ = true -> VNil <> VNil |- _ => exact (X eq_refl eq_refl) end.
  - intros k v [[= <- <-]|[[= <- <-]|[]]]; (split; [first [discriminate | reflexivity]|]); (split; [apply T|]).
    + eapply n_zmap; [apply B; reflexivity | reflexivity | reflexivity | repeat constructor; cbn; intuition discriminate | |].
      * intros k x k' x' s [[= <- <-]|[]] [[= <- <-]|[]] _ _. reflexivity.
      * intros k v [[= <- <-]|[]]. split; [eauto|]. split; [apply n_time; intros y Hy _; apply local_year_iff in Hy; subst y; vm_compute; split; [discriminate | reflexivity]|].
        eapply n_imap; [apply B; reflexivity | reflexivity | right; split; reflexivity | reflexivity | repeat constructor; cbn; intuition discriminate|].
        intros k v [[= <- <-]|[[= <- <-]|[]]]; (split; [eauto|]); apply n_str; try (apply B); reflexivity.
    + apply n_nil; [apply B; reflexivity|]. right. right. right. split; reflexivity.
Qed.
Example C58_keys_only out : std mtH mtV true ky_t false false ky_v out <-> out = ky_out.
Proof.
  assert (C : call mtH (mt_m ky_t ky_v) ky_t (mt_w ky_t ky_v) ky_v [] default_opts) by mt_call.
  assert (X : forall out, marshal_returns mtH (mt_m ky_t ky_v) (Some (ky_t, mt_w ky_t ky_v)) [] (MOk out) <-> std mtH mtV true ky_t false false ky_v out)
    by (intros x; apply (C58_neat mtH mtV _ ky_t _ ky_v [] default_opts true x mt_ok ex_shortest mt_sort ltac:(repeat split) C ky_neat)).
  assert (R : marshal_returns mtH (mt_m ky_t ky_v) (Some (ky_t, mt_w ky_t ky_v)) [] (MOk ky_out)) by mt_run.
  apply X in R. split; [|intros ->; exact R]. intros S. exact (C58_unique mtH mtV true _ _ _ _ _ _ ex_shortest S R).
Qed.
(** Outer{&Inner{1}}: the promoted field is addressable, so encoding/json calls
    the method of *C; the code does not. *)
Lemma out_std : std mtH mtV true (TNamed 2) false false out_v (lit "{""X"":[1]}").
Proof.
  assert (S : exists f, structFields mtH 5%nat (TNamed 2) = Some [f] /\ f_index f = [0%nat; 0%nat] /\ f_omitEmpty f = false /\ f_quoted f = false /\ f_name f = [88]) by (eexists; split; vm_compute; [reflexivity | auto]).
  destruct S as (f & S & Fi & Fe & Fq & Fn).
  assert (B : bare mtH (TNamed 2)) by (intros ca; split; [reflexivity | destruct ca; vm_compute; reflexivity]).
  eapply (S_struct mtH mtV true (TNamed 2) false false _ [f] _ [lit """X"":[1]"]); [apply plain_no_marshaler, B | reflexivity | eapply json_fields_struct; [exact mt_ok | exact I | exact S]|].
  assert (V : field_value mtH (TNamed 2) out_v f (TNamed 0) (VInt 1)) by (split; rewrite Fi; reflexivity).
  apply (SF_show _ _ _ _ _ _ f (TNamed 0) true (VInt 1) (lit """X""") (lit "[1]"));
    [exact V | intros [C|(ft & x & _ & C & _)]; [rewrite Fi in C; discriminate | congruence] | rewrite Fn; exists (lit "X"); split; [apply (plain_escape true [88] [88]); [apply ascii_utf8; repeat constructor; lia | constructor; [|constructor]; repeat split; intros; lia] | reflexivity] | reflexivity | | | constructor].
  - intros N. exfalso. apply N. exists [0%nat], 0%nat, [], (TPtr (TNamed 1)). rewrite Fi. repeat split. discriminate.
  - assert (X : exists j, parse_json (lit "[ 1 ]") = Some j) by (eexists; vm_compute; reflexivity). destruct X as (j & X).
    apply (S_method _ _ _ _ _ _ MJson _ (TPtr (TNamed 0)) (VPtr (VInt 1)) (lit "[ 1 ]")); [split; [reflexivity|]; split; [right; repeat split | left; reflexivity] | apply (rc_addr mtH (TNamed 0)) | reflexivity|].
    apply (mj_json _ _ j); [apply lit_bytes | apply parse_json_correct; [apply lit_bytes | exact X]|].
    apply (compact_text_of true true j); [apply parse_json_correct; [apply lit_bytes | exact X] | apply lit_bytes | vm_compute; reflexivity].
Qed.
Example C58_promoted : marshal_returns mtH (mt_m (TNamed 2) out_v) (Some (TNamed 2, mt_w (TNamed 2) out_v)) [] (MOk (lit "{""X"":1}")) /\ ~ std mtH mtV true (TNamed 2) false false out_v (lit "{""X"":1}").
Proof. split; [exact out_out|]. intros S. assert (Y := C58_unique mtH mtV true _ _ _ _ _ _ ex_shortest S out_std). vm_compute in Y. discriminate. Qed.

Print Assumptions C58_text_partial.
Print Assumptions C58_unique.
Print Assumptions C58_error.
Print Assumptions C58_neat.
Print Assumptions C58_text_refuted.
