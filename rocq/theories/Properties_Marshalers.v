(** C36-C40: user methods, the string option and nil values. *)
From Verif Require Import Base Utf8 JsonSpec NumberModel NumberProof OptionsModel EscapeModel EscapeProof JsonParse StrictParse CompactModel CompactProof IntModel IntProof TypesModel TypesFacts TagsModel CalendarSpec TimeModel TimeProof
  FloatModel FloatProof LeafModel LeafProof MemModel FieldsModel FieldsProof InstrModel ExecModel ValueModel ExecMono ExecProof HostFacts VencFacts MarshalThm DocSpec EntriesFacts DocLeaf PartFacts DocProof SafeProof ApiFacts
  PartsThm ShapeThm CallFacts MethodsThm ExampleHost ExampleConst ExampleRead Properties_Options Properties_Strings Properties_Numbers Properties_Fields Properties_Members Properties_Maps Properties_Api.

(** ** C36: precedence *)
(** What a part with a method contributes: null for a nil pointer or interface,
    else the result of the first method available, on its receiver. *)
Definition method_output (H : host) (vcall : mkind -> typ -> val -> option Z -> bytes + Z) (o : encOpts) (t : typ) (v : val) (k : mkind) (b : bytes) : Prop :=
  (v = VNil /\ (is_ptr H t = true \/ is_iface H t = true) /\ b = l_null) \/
  exists td x r, receiver H t (by_address H t k) v td x /\ vcall k td x (ctx_of o k) = inl r /\ presented o k r b.

Definition precedence (emb : bool) (H : host) (vcall : mkind -> typ -> val -> option Z -> bytes + Z) : Prop :=
  forall m t w v opts o out t' ca q v' a k, call H m t w v opts o -> marshal_returns H m (Some (t, w)) opts (MOk out) ->
    placed H o emb t v (t', ca, q, v') a -> native t' = false -> first_method H t' a k ->
    exists b, bytes_of H vcall o (t', ca, q, v') b /\ infix b out /\ method_output H vcall o t' v' k b.

(** [precedence true] is the full statement; this excludes parts reached through
    an embedded pointer. *)
Theorem C36_first_partial H vcall : host_ok H vcall -> sort_ok H -> precedence false H vcall.
Proof.
  intros OK SO m t w v opts o out t' ca q v' a k C R P Hn F.
  destruct (call_inner H vcall OK m t w v opts o C out _ SO R (placed_inner _ _ _ _ _ _ _ P)) as (b & Hb & Hi).
  exists b. split; [exact Hb|]. split; [exact Hi|]. apply (first_addr H t' ca a k (placed_addr _ _ _ _ _ _ P)) in F.
  destruct (method_bytes H vcall o t' ca q v' k b OK Hn F Hb) as [(A1 & _ & A2 & A3)|A]; [left; auto | right; exact A].
Qed.

(** Without any method available the value is encoded by its kind. *)
Theorem C36_none_partial H o t v t' ca q v' a : placed H o false t v (t', ca, q, v') a -> native t' = false -> no_method H t' a -> DocSpec.plain H t' ca.
Proof.
  intros P Hn N. split; [exact Hn|]. apply method_none. intros k A. apply (N k), (available_addr H t' ca a k (placed_addr _ _ _ _ _ _ P)), A.
Qed.

(** time.Time, time.Duration, json.Number and json.RawMessage do not depend on
    any method, whatever the method sets. *)
Theorem C36_native H H' vcall vcall' o t ca ca' q q' v b : t = TTime \/ t = TDuration \/ t = TNumber \/ t = TRawMessage ->
  h_fmt H = h_fmt H' -> h_shortest H = h_shortest H' -> h_tofloat H = h_tofloat H' ->
  bytes_of H vcall o (t, ca, q, v) b -> bytes_of H' vcall' o (t, ca', q', v) b.
Proof.
  intros T E1 E2 E3 [n Hb]. exists n. destruct n as [|n]; [discriminate|]. cbn [venc] in *.
  destruct T as [T|[T|[T|T]]]; subst t; cbn [native vnative] in *; rewrite <- ?E1, <- ?E2, <- ?E3; exact Hb.
Qed.
(** A sync.Map is an object of its entries, whatever its methods. *)
Theorem C36_sync H vcall o ca q es b : sort_ok H -> bytes_of H vcall o (TSyncMap, ca, q, VSync es) b ->
  exists kvs, Forall2 (sync_entry_bytes H vcall o) es kvs /\ map_text o kvs b.
Proof. intros SO Hb. eapply sync_bytes; eauto. Qed.

(** ** C37: errors, nil and contexts *)
Theorem C37_error_reported H vcall m t w v opts o t' ca q v' k td x e : host_ok H vcall -> call H m t w v opts o ->
  part H o (t, is_ptr H t, false, v) (t', ca, q, v') -> native t' = false -> first_method H t' ca k -> receiver H t' (by_address H t' k) v' td x ->
  vcall k td x (ctx_of o k) = inr e -> exists e', forall r, marshal_returns H m (Some (t, w)) opts r <-> r = MErr e'.
Proof.
  intros OK C Hp Hn F Rc Hc. destruct (call_returns H vcall OK m t w v opts o C) as (out & [e'|] & A & B); [exists e'; exact B|]. exfalso.
  assert (Hr : raises H vcall o (t', ca, q, v') (EMarshaler (if by_address H t' k then TPtr t' else t') k (IUser e))) by (eapply ra_method; eauto; apply method_first; auto).
  apply (raises_none H vcall o OK _ _ Hr). apply (part_gives H vcall o OK m (t, is_ptr H t, false, v)); [apply (call_held H vcall OK m t w v opts o C) | exact Hp|].
  apply encodes_inv in A. destruct A as [n Hn']. exists n, out. exact Hn'.
Qed.

(** An error that blames a method was returned by that method, on a part of
    that type (or its address). *)
Theorem C37_error_origin H vcall m t w v opts o T k e : host_ok H vcall -> call H m t w v opts o -> marshal_returns H m (Some (t, w)) opts (MErr (EMarshaler T k (IUser e))) ->
  exists t' ca q v' td x, part H o (t, is_ptr H t, false, v) (t', ca, q, v') /\ native t' = false /\ first_method H t' ca k /\
    T = (if by_address H t' k then TPtr t' else t') /\ receiver H t' (by_address H t' k) v' td x /\ vcall k td x (ctx_of o k) = inr e.
Proof.
  intros OK C R. destruct (call_returns H vcall OK m t w v opts o C) as (out & err & A & B). apply B in R. destruct err as [e'|]; [|discriminate]. injection R as <-.
  apply encodes_inv in A. destruct A as [n Hn]. destruct (error_raised H vcall o OK n _ _ _ _ _ _ Hn) as ([[[t' ca'] q'] v'] & Hp & Hr).
  inversion Hr as [| | | | | |? ? ? ? ? ? td x ? Hna Hm Hrc Hc| | |]; subst. apply method_first in Hm. destruct Hm as [F ->]. eauto 15.
Qed.

Lemma raises_method_only H vcall o t ca q v k hp td x e e' : native t = false -> method_of H t ca = Some (k, hp) -> receiver H t hp v td x -> vcall k td x (ctx_of o k) = inr e ->
  raises H vcall o (t, ca, q, v) e' -> e' = EMarshaler (if hp then TPtr t else t) k (IUser e).
Proof.
  intros Hn M Rc Hc Hr. inversion Hr; subst; try discriminate Hn;
    try match goal with P : DocSpec.plain H t ca |- _ => destruct P as [_ P]; congruence end.
  - match goal with M' : method_of H t ca = Some _, R' : receiver H t _ v _ _ |- _ => rewrite M in M'; injection M' as <- <-; destruct (receiver_det H _ _ _ _ _ _ _ Rc R') as [<- <-] end. congruence.
  - match goal with M' : method_of H t ca = Some _, R' : receiver H t _ v _ _ |- _ => rewrite M in M'; injection M' as -> <-; destruct (receiver_det H _ _ _ _ _ _ _ Rc R') as [<- <-] end. cbn [ctx_of] in Hc. congruence.
Qed.

(** If the failing method is the only thing wrong with the value, its error is
    the one returned. *)
Theorem C37_error_exact H vcall m t w v opts o t' ca q v' k td x e : host_ok H vcall -> call H m t w v opts o ->
  part H o (t, is_ptr H t, false, v) (t', ca, q, v') -> native t' = false -> first_method H t' ca k -> receiver H t' (by_address H t' k) v' td x ->
  vcall k td x (ctx_of o k) = inr e ->
  (forall y e', part H o (t, is_ptr H t, false, v) y -> raises H vcall o y e' -> y = (t', ca, q, v')) ->
  forall r, marshal_returns H m (Some (t, w)) opts r <-> r = MErr (EMarshaler (if by_address H t' k then TPtr t' else t') k (IUser e)).
Proof.
  intros OK C Hp Hn F Rc Hc Only. destruct (C37_error_reported H vcall m t w v opts o t' ca q v' k td x e OK C Hp Hn F Rc Hc) as [e' He].
  assert (Hr : raises H vcall o (t', ca, q, v') (EMarshaler (if by_address H t' k then TPtr t' else t') k (IUser e))) by (eapply ra_method; eauto; apply method_first; auto).
  assert (X : e' = EMarshaler (if by_address H t' k then TPtr t' else t') k (IUser e)); [|rewrite <- X; exact He].
  assert (R := proj2 (He _) eq_refl). destruct (call_returns H vcall OK m t w v opts o C) as (out & err & A & B). apply B in R. destruct err as [e1|]; [|discriminate]. injection R as <-.
  apply encodes_inv in A. destruct A as [n Hn']. destruct (error_raised H vcall o OK n _ _ _ _ _ _ Hn') as (y & Hp' & Hr').
  rewrite (Only _ _ Hp' Hr') in Hr'. assert (M : method_of H t' ca = Some (k, by_address H t' k)) by (apply method_first; auto).
  apply (raises_method_only H vcall o t' ca q v' k (by_address H t' k) td x e); auto.
Qed.

(** A nil pointer or interface is null whatever methods return. *)
Theorem C37_nil H vcall o t ca q : is_ptr H t = true \/ (is_iface H t = true /\ forall k, h_impl H (TPtr t) k = false) -> bytes_of H vcall o (t, ca, q, VNil) l_null.
Proof.
  intros Hc. exists 1%nat. cbn [venc].
  assert (Hn : native t = false). { destruct t; try reflexivity; destruct Hc as [Hc|[Hc _]]; unfold is_ptr, is_iface in Hc; cbn in Hc; discriminate. }
  rewrite Hn. destruct (method_of H t ca) as [[k hp]|] eqn:Em.
  - assert (hp = false). { apply method_first in Em. destruct Em as [[[A|(A & _ & B)] _] ->]; unfold by_address; [rewrite A; reflexivity|]. destruct Hc as [Hc|[_ Hc]]; [congruence | rewrite Hc in B; discriminate]. }
    subst hp. unfold vmarshaler. unfold is_ptr, is_iface in Hc. destruct (under (h_env H) t); try reflexivity; destruct Hc as [Hc|[Hc _]]; discriminate.
  - unfold vkind. unfold is_ptr, is_iface in Hc. destruct (under (h_env H) t); try reflexivity; destruct Hc as [Hc|[Hc _]]; discriminate.
Qed.

(** AppendJSONContext gets the context given last, or context.TODO(). *)
Theorem C37_context H vcall m t w v opts o out t' ca q v' td x : host_ok H vcall -> sort_ok H ->
  call H m t w v opts o -> marshal_returns H m (Some (t, w)) opts (MOk out) -> inner H o (t, is_ptr H t, false, v) (t', ca, q, v') ->
  native t' = false -> first_method H t' ca MCtx -> receiver H t' (by_address H t' MCtx) v' td x ->
  (forall c, last_set OWithContext opts c -> exists b, vcall MCtx td x c = inl b /\ bytes_of H vcall o (t', ca, q, v') b /\ infix b out) /\
  (never_set OWithContext opts -> exists b, vcall MCtx td x (Some ctx_todo) = inl b /\ bytes_of H vcall o (t', ca, q, v') b /\ infix b out).
Proof.
  intros OK SO C R Hi Hn F Rc. destruct (call_inner H vcall OK m t w v opts o C out _ SO R Hi) as (b & Hb & Hf).
  assert (G : vcall MCtx td x (o_ctx o) = inl b).
  { destruct (method_bytes H vcall o t' ca q v' MCtx b OK Hn F Hb) as [(-> & A1 & A2 & _)|(td' & x' & r & A1 & A2 & A3)].
    - rewrite A1 in Rc. destruct (nil_no_receiver H _ _ _ A2 Rc).
    - destruct (receiver_det H _ _ _ _ _ _ _ Rc A1) as [<- <-]. cbn [ctx_of presented] in *. subst r. exact A2. }
  assert (Eo : o = config opts).
  { assert (Ho := c_opts _ _ _ _ _ _ _ C). unfold call_opts, check_opts in Ho. destruct opts as [|o1 opts]; [injection Ho as <-; reflexivity|].
    cbv zeta in Ho. destruct (validate (apply default_opts (o1 :: opts))); [discriminate | injection Ho as <-; reflexivity]. }
  destruct (C16_last_wins opts) as (_ & _ & [L N] & _). rewrite Eo in G at 1. split.
  - intros c Hc. rewrite (L c Hc) in G. eauto.
  - intros Hc. rewrite (N Hc) in G. eauto.
Qed.

(** ** C38: MarshalText *)
Definition text_correct (H : host) (vcall : mkind -> typ -> val -> option Z -> bytes + Z) (ok : bytes -> Prop) : Prop :=
  forall m t w v opts o out t' ca q v' td x r, call H m t w v opts o -> marshal_returns H m (Some (t, w)) opts (MOk out) -> inner H o (t, is_ptr H t, false, v) (t', ca, q, v') ->
    native t' = false -> first_method H t' ca MText -> receiver H t' (by_address H t' MText) v' td x -> vcall MText td x None = inl r -> ok r ->
    exists b us, bytes_of H vcall o (t', ca, q, v') b /\ infix b out /\ string_units r us /\ json no_ws true (JStr us) b.

(** [text_correct H vcall bytes_ok] is the full statement. *)
Theorem C38_text_partial H vcall : host_ok H vcall -> sort_ok H -> text_correct H vcall plain_text.
Proof.
  intros OK SO m t w v opts o out t' ca q v' td x r C R Hi Hn F Rc Hc Hp. destruct (call_inner H vcall OK m t w v opts o C out _ SO R Hi) as (b & Hb & Hf).
  destruct (plain_string r Hp) as (us & Hu & Hj). exists b, us. split; [exact Hb|]. split; [exact Hf|]. split; [exact Hu|].
  destruct (method_bytes H vcall o t' ca q v' MText b OK Hn F Hb) as [(-> & A1 & A2 & _)|(td' & x' & r' & A1 & A2 & A3)].
  - rewrite A1 in Rc. destruct (nil_no_receiver H _ _ _ A2 Rc).
  - destruct (receiver_det H _ _ _ _ _ _ _ Rc A1) as [<- <-]. cbn [ctx_of presented] in *. rewrite Hc in A2. injection A2 as <-. subst b. apply to_lax, Hj.
Qed.

(** ** C39: the string option *)
(** A JSON string whose content is the JSON text of the value. *)
Definition doubly_encoded (H : host) vcall (o : encOpts) (t : typ) (ca : bool) (v : val) (b : bytes) : Prop :=
  exists us s j, json no_ws true (JStr us) b /\ string_units s us /\ cjson j s /\ doc H vcall o t ca false v j.
Definition string_option (H : host) vcall (ok : typ -> val -> Prop) : Prop :=
  forall m t w v opts o out t' ca v', call H m t w v opts o -> esc_on o -> marshal_returns H m (Some (t, w)) opts (MOk out) -> inner H o (t, is_ptr H t, false, v) (t', ca, true, v') ->
    method_of H t' ca = None -> isBasicType (h_env H) t' = true -> ok t' v' -> exists b, bytes_of H vcall o (t', ca, true, v') b /\ infix b out /\ doubly_encoded H vcall o t' ca v' b.

(** All booleans, integers and floats, and strings without characters to
    escape. *)
Definition once_enough (t : typ) (v : val) : Prop := t <> TNumber /\ t <> TDuration /\ forall s, v = VStr s -> quotable s.

Theorem C39_string_option_partial H vcall : host_ok H vcall -> shortest_ok (h_shortest H) -> sort_ok H -> string_option H vcall once_enough.
Proof.
  intros OK SH SO m t w v opts o out t' ca v' C ON R Hi Hm Bt (N1 & N2 & Q). destruct (call_inner H vcall OK m t w v opts o C out _ SO R Hi) as (b & Hb & Hf).
  exists b. split; [exact Hb|]. split; [exact Hf|].
  assert (Hn : native t' = false). { destruct t'; try reflexivity; try congruence; cbn in Bt; discriminate. }
  assert (P : DocSpec.plain H t' ca) by (split; assumption).
  assert (Hh := part_held H vcall OK o m _ _ (call_held H vcall OK m t w v opts o C) (inner_part _ _ _ _ Hi)). destruct Hh as (Ht & l & Hl). assert (Hl0 := Hl). apply (shape H m) in Hl.
  destruct Hb as [n Hb]. destruct n as [|n]; [discriminate|]. cbn [venc] in Hb. rewrite Hn, Hm in Hb. unfold vkind in Hb.
  assert (G : forall j s, DocSpec.doc H vcall o t' ca false v' j -> cjson j s -> Forall pchar s -> vquote_if true (VRet s None) = VRet b None -> doubly_encoded H vcall o t' ca v' b).
  { intros j s Hd Hj Hp E. cbn [vquote_if vquote app] in E. injection E as <-. exists (map U16 s), s, j. split; [apply to_lax, j_str, ascii_jchars, Hp|]. split; [|split; [exact Hj | exact Hd]].
    apply ascii_units. eapply Forall_impl; [|exact Hp]. unfold pchar. intros c; cbn; lia. }
  unfold isBasicType, isString, isInteger, isFloatingPoint, isBoolean in Bt. destruct (under (h_env H) t') eqn:U; try discriminate Bt.
  - destruct v'; try discriminate Hb. apply (G (JBool b0) (encode_bool b0 [])); auto.
    + apply D_bool; auto.
    + destruct b0; constructor.
    + destruct b0; repeat constructor; lia.
  - destruct v'; try discriminate Hb. destruct (inv_int H m _ _ _ Hl0) as (k' & Hk & _ & Hrg). rewrite U in Hk. injection Hk as <-.
    destruct (encode_int_spec k n0 [] Hrg) as (s & Es & Hs'). cbn [app] in Es. rewrite Es in Hb. assert (Hj := int_lit_jnumber _ _ Hs').
    apply (G (JNum s) s); auto; [eapply D_int; eauto | apply j_num; exact Hj | apply jnumber_pchar; exact Hj].
  - destruct v'; try discriminate Hb. destruct (appendFloat (h_shortest H) [] f is64) as [s [e|]| |] eqn:Ef; try discriminate Hb.
    destruct (float_doc _ _ _ _ SH Ef) as [F1 F2].
    apply (G (JNum s) s); auto; [eapply D_float; eauto | apply j_num; exact F2 | apply jnumber_pchar; exact F2].
  - destruct v'; try discriminate Hb. destruct (inv_str H m _ _ _ Hl0) as (_ & _ & Hbo). injection Hb as <-.
    destruct (quoted_string_doc H vcall o ON true t' ca s P U Hbo (Q s eq_refl)) as (j & Hd & Hj).
    inversion Hd; subst; try congruence. exists us, s0, j0. auto.
Qed.

(** The text in the quotes is the one encoded without the option. *)
Theorem C39_scalar H vcall o t ca v b : DocSpec.plain H t ca -> isBasicType (h_env H) t = true -> isString (h_env H) t = false ->
  bytes_of H vcall o (t, ca, true, v) b -> exists b', bytes_of H vcall o (t, ca, false, v) b' /\ b = 34 :: b' ++ [34].
Proof.
  intros [Hn Hm] Bt Bs [n Hb]. destruct n as [|n]; [discriminate|]. cbn [venc] in Hb. rewrite Hn, Hm in Hb.
  assert (G : forall r, vquote_if true r = VRet b None -> exists b', r = VRet b' None /\ b = 34 :: b' ++ [34]) by (intros r; apply (vquote_if_none true)).
  enough (exists b', vkind H o (venc H vcall o n) n t ca false v = VRet b' None /\ b = 34 :: b' ++ [34]) as (b' & A & B).
  { exists b'. split; [exists (S n); cbn [venc]; rewrite Hn, Hm; exact A | exact B]. }
  unfold vkind in *. unfold isBasicType, isBoolean, isString, isInteger, isFloatingPoint in *. destruct (under (h_env H) t); try discriminate Bt; try discriminate Bs;
    destruct v; try discriminate Hb; apply G; exact Hb.
Qed.

(** ** C40: nil and empty *)
Definition said (opts : list (option option_)) (x : option_) (b b1 b2 : bytes) : Prop := (In (Some x) opts -> b = b1) /\ (~ In (Some x) opts -> b = b2).
Definition nil_text (H : host) (opts : list (option option_)) (t : typ) (b : bytes) : Prop :=
  match under (h_env H) t with
  | TPtr _ | TIface _ => b = lit "null"
  | TMap _ _ => said opts ONilMapEmpty b (lit "{}") (lit "null")
  | TSlice _ => said opts ONilSliceEmpty b (lit "[]") (lit "null")
  | _ => False
  end.
Definition nil_correct (H : host) vcall (ok : typ -> Prop) : Prop :=
  forall m t w v opts o out t' ca q, call H m t w v opts o -> marshal_returns H m (Some (t, w)) opts (MOk out) -> inner H o (t, is_ptr H t, false, v) (t', ca, q, VNil) ->
    DocSpec.plain H t' ca -> ok t' -> exists b, bytes_of H vcall o (t', ca, q, VNil) b /\ infix b out /\ nil_text H opts t' b.

Lemma call_config opts o : call_opts opts = Some o -> o = config opts.
Proof. rewrite call_opts_config. destruct (validate (config opts)); [discriminate | intros [= <-]; reflexivity]. Qed.

(** [nil_correct H vcall (fun _ => True)] is the full statement. *)
Theorem C40_nil_partial H vcall : host_ok H vcall -> sort_ok H -> nil_correct H vcall (fun t => forall e, under (h_env H) t = TSlice e -> byte_elem H e = false).
Proof.
  intros OK SO m t w v opts o out t' ca q C R Hi [Hn Hm] Hk. destruct (call_inner H vcall OK m t w v opts o C out _ SO R Hi) as (b & Hb & Hf).
  exists b. split; [exact Hb|]. split; [exact Hf|]. assert (Eo := call_config opts o (c_opts _ _ _ _ _ _ _ C)).
  assert (F1 := C16_flags opts ONilMapEmpty nilMapEmpty ltac:(cbn; tauto)). assert (F2 := C16_flags opts ONilSliceEmpty nilSliceEmpty ltac:(cbn; tauto)). rewrite <- Eo in F1, F2.
  destruct Hb as [n Hb]. destruct n as [|n]; [discriminate|]. cbn [venc] in Hb. rewrite Hn, Hm in Hb. unfold vkind in Hb. unfold nil_text, said.
  destruct (under (h_env H) t') eqn:U; try discriminate Hb.
  - injection Hb as <-. reflexivity.
  - injection Hb as <-. reflexivity.
  - rewrite (Hk _ eq_refl) in Hb. injection Hb as <-. destruct (has (o_flags o) nilSliceEmpty); split; intros X; try reflexivity; [destruct X; apply F2; reflexivity | apply F2 in X; discriminate].
  - match type of Hb with (if ?c then _ else _) = _ => destruct c; [discriminate|] end. injection Hb as <-. destruct (has (o_flags o) nilMapEmpty); split; intros X; try reflexivity; [destruct X; apply F1; reflexivity | apply F1 in X; discriminate].
Qed.

Theorem C40_empty H vcall m t w v opts o out t' ca q v' : host_ok H vcall -> sort_ok H -> call H m t w v opts o -> marshal_returns H m (Some (t, w)) opts (MOk out) ->
  inner H o (t, is_ptr H t, false, v) (t', ca, q, v') -> DocSpec.plain H t' ca ->
  (v' = VMap [] -> infix (lit "{}") out /\ bytes_of H vcall o (t', ca, q, v') (lit "{}")) /\
  (forall e, v' = VSlice [] -> under (h_env H) t' = TSlice e -> let b := if byte_elem H e then [34; 34] else lit "[]" in infix b out /\ bytes_of H vcall o (t', ca, q, v') b).
Proof.
  intros OK SO C R Hi [Hn Hm]. destruct (call_inner H vcall OK m t w v opts o C out _ SO R Hi) as (b & Hb & Hf).
  assert (Hb0 := Hb). destruct Hb as [n Hb]. destruct n as [|n]; [discriminate|]. cbn [venc] in Hb. rewrite Hn, Hm in Hb. unfold vkind in Hb. split.
  - intros ->. destruct (under (h_env H) t') eqn:U; try discriminate Hb. match type of Hb with (if ?c then _ else _) = _ => destruct c; [discriminate|] end. injection Hb as <-. auto.
  - intros e -> U. rewrite U in Hb. cbv zeta. destruct (byte_elem H e).
    + cbn [vbytes] in Hb. unfold encode_byte_slice in Hb. assert (X : appendEscapedBytes [34] [] o = [34]) by (unfold appendEscapedBytes, appendEscapedBytes_opt; destruct (has (o_flags o) noStringEscaping); reflexivity).
      destruct (has (o_flags o) rawByteSlice); injection Hb as <-; [cbn [app] in Hf, Hb0; rewrite X in Hf, Hb0|]; auto.
    + cbn [velems] in Hb. injection Hb as <-. auto.
Qed.

(** ** A host with methods *)
Definition mt_impl (t : typ) (k : mkind) : bool :=
  match (match t with TPtr e => e | _ => t end) with
  | TNamed 0 => match t, k with TPtr _, MJson => true | _, _ => false end
  | TNamed 3 | TNamed 8 => match k with MText => true | _ => false end
  | TNamed 4 => match k with MCtx | MJson | MText => true | _ => false end
  | TNamed 6 => match k with MApp => true | _ => false end
  | TTime => match k with MJson | MText => true | _ => false end
  | _ => false
  end.
Definition mt_result (k : mkind) (td : typ) (ctx : option Z) : bytes + Z :=
  match (match td with TPtr e => e | _ => td end) with
  | TNamed 6 => inr 5
  | TNamed 8 => inl (lit "ab")
  | TTime => inl (lit """1970-01-01T00:00:00Z""")
  | _ => match k with
         | MCtx => match ctx with Some 7 => inl (lit "7") | _ => inl (lit "0") end
         | MApp => inl (lit "true")
         | MJson => inl (lit "[ 1 ]")
         | MText => inl (lit "a""b")
         end
  end.
(** type C int (MarshalJSON on pointers); type Inner struct{X C}; type Outer
    struct{*Inner}; type T int (MarshalText); type P int (AppendJSONContext,
    MarshalJSON, MarshalText); type S struct{S string; I int} with the string
    option; type F int (AppendJSON, fails); type N struct{N json.Number; D
    time.Duration} with the string option; type U int (MarshalText); type L
    struct{M map[string]int; S []int; B []byte} *)
Definition mt_ds : list typ :=
  [TInt KInt; TStruct [fld "X" "" (TNamed 0)]; TStruct [emb "Inner" (TPtr (TNamed 1))]; TInt KInt; TInt KInt;
   TStruct [fld "S" ",string" TString; fld "I" ",string" (TInt KInt)]; TInt KInt;
   TStruct [fld "N" ",string" TNumber; fld "D" ",string" TDuration]; TInt KInt;
   TStruct [fld "M" "" (TMap TString (TInt KInt)); fld "S" "" (TSlice (TInt KInt)); fld "B" "" (TSlice (TInt KUint8))]].
Definition mtH : host := constH mt_ds mt_impl mt_result.
Definition mtV := constV mt_result.
Lemma mt_ok : host_ok mtH mtV.
Proof.
  apply constH_ok; [vm_compute; reflexivity|]. intros k td ctx b E. apply bytes_okb_ok. unfold mt_result in E.
  repeat match type of E with match ?x with _ => _ end = _ => destruct x; try discriminate E end; injection E as <-; reflexivity.
Qed.
Lemma mt_sort : sort_ok mtH. Proof. apply constH_sort. Qed.
Ltac mt_call := apply (const_call mt_ds mt_impl mt_result 10); vm_compute; reflexivity.
Ltac mt_run := exists 12%nat; split; [vm_compute; reflexivity | discriminate].
Definition mt_m t v := mem_of mtH t v.
Definition mt_w t v := word_of mtH t v.

(** Outer{&Inner{1}}: X is addressable in Go, its method is not used. *)
Definition out_v : val := VStruct [VPtr (VStruct [VInt 1])].
Lemma out_call : call mtH (mt_m (TNamed 2) out_v) (TNamed 2) (mt_w (TNamed 2) out_v) out_v [] default_opts.
Proof. mt_call. Qed.
Lemma out_out : marshal_returns mtH (mt_m (TNamed 2) out_v) (Some (TNamed 2, mt_w (TNamed 2) out_v)) [] (MOk (lit "{""X"":1}")).
Proof. mt_run. Qed.
Definition out_fs : list field := match structFields mtH 5 (TNamed 2) with Some fs => fs | None => [] end.
Definition out_f : field := hd (mkField [] false false false false [] []) out_fs.
Lemma out_placed : placed mtH default_opts true (TNamed 2) out_v (TNamed 0, false, false, VInt 1) true.
Proof.
  apply (pl_promoted mtH default_opts true (TNamed 2) out_v (TNamed 2) false false [emb "Inner" (TPtr (TNamed 1))] 5%nat out_fs [VPtr (VStruct [VInt 1])] out_f (TNamed 0) (VInt 1) false).
  - reflexivity.
  - apply pl_top.
  - split; vm_compute; reflexivity.
  - reflexivity.
  - vm_compute. reflexivity.
  - vm_compute. left. reflexivity.
  - split; [|split].
    + intros [(d & [=] & _)|(d & [=] & _)].
    + split; vm_compute; reflexivity.
    + intros [[X _]|[X _]]; vm_compute in X; discriminate.
  - intros [X _]. vm_compute in X. discriminate.
  - exists [0%nat], 0%nat, [], (TPtr (TNamed 1)). repeat split; try (vm_compute; reflexivity). discriminate.
Qed.
Theorem C36_embedded_refuted : host_ok mtH mtV /\ sort_ok mtH /\ ~ precedence true mtH mtV.
Proof.
  split; [exact mt_ok|]. split; [exact mt_sort|]. intros P.
  destruct (P _ _ _ _ _ _ _ _ _ _ _ _ MJson out_call out_out out_placed eq_refl) as (b & Hb & _ & Hm).
  { apply (proj1 (method_first mtH (TNamed 0) true MJson true)). vm_compute. reflexivity. }
  assert (Eb : b = lit "1") by (apply (bytes_of_det mtH mtV default_opts _ _ _ Hb); exists 3%nat; vm_compute; reflexivity). subst b.
  destruct Hm as [(E & _)|(td & x & r & A & B & j & D & F)]; [discriminate|].
  assert (r = lit "[ 1 ]") as ->.
  { inversion A; subst; vm_compute in B; try (injection B as <-; reflexivity). }
  apply parse_json_correct in D; [|apply bytes_okb_ok; reflexivity]. vm_compute in D. injection D as <-. inversion F.
Qed.

(** []C{1}: elements of a slice are addressable. *)
Definition sc_t : typ := TSlice (TNamed 0).
Definition sc_v : val := VSlice [VInt 1].
Lemma sc_call : call mtH (mt_m sc_t sc_v) sc_t (mt_w sc_t sc_v) sc_v [] default_opts.
Proof. mt_call. Qed.
Lemma sc_out : marshal_returns mtH (mt_m sc_t sc_v) (Some (sc_t, mt_w sc_t sc_v)) [] (MOk (lit "[[1]]")).
Proof. mt_run. Qed.
Example C36_slice_example : exists b, bytes_of mtH mtV default_opts (TNamed 0, true, false, VInt 1) b /\ infix b (lit "[[1]]") /\ method_output mtH mtV default_opts (TNamed 0) (VInt 1) MJson b.
Proof.
  apply (C36_first_partial mtH mtV mt_ok mt_sort _ _ _ _ _ _ _ _ _ _ _ true MJson sc_call sc_out).
  - eapply (pl_slice mtH default_opts false sc_t sc_v sc_t); [apply pl_top | split; vm_compute; reflexivity | reflexivity | vm_compute; reflexivity | left; reflexivity].
  - reflexivity.
  - apply (proj1 (method_first mtH (TNamed 0) true MJson true)). vm_compute. reflexivity.
Qed.
(** map[string]C: elements are not addressable, the method is not available. *)
Definition mc_t : typ := TMap TString (TNamed 0).
Definition mc_v : val := VMap [(VStr (lit "k"), VInt 1)].
Example C36_map_example : DocSpec.plain mtH (TNamed 0) false.
Proof.
  apply (C36_none_partial mtH default_opts mc_t mc_v (TNamed 0) false false (VInt 1) false).
  - eapply (pl_elem mtH default_opts false mc_t mc_v mc_t); [apply pl_top | split; vm_compute; reflexivity | reflexivity | vm_compute; reflexivity | left; reflexivity].
  - reflexivity.
  - apply (method_none mtH (TNamed 0) false). vm_compute. reflexivity.
Qed.
(** P with a context: AppendJSONContext wins and gets it. *)
Definition p_opts : list (option option_) := [Some (OWithContext (Some 3)); None; Some (OWithContext (Some 7))].
Lemma p_call : call mtH (mt_m (TNamed 4) (VInt 1)) (TNamed 4) (mt_w (TNamed 4) (VInt 1)) (VInt 1) p_opts (config p_opts).
Proof. mt_call. Qed.
Lemma p_out : marshal_returns mtH (mt_m (TNamed 4) (VInt 1)) (Some (TNamed 4, mt_w (TNamed 4) (VInt 1))) p_opts (MOk (lit "7")).
Proof. mt_run. Qed.
Example C37_context_example : exists b, mtV MCtx (TNamed 4) (VInt 1) (Some 7) = inl b /\ bytes_of mtH mtV (config p_opts) (TNamed 4, false, false, VInt 1) b /\ infix b (lit "7").
Proof.
  apply (C37_context mtH mtV _ _ _ _ _ _ _ (TNamed 4) false false (VInt 1) (TNamed 4) (VInt 1) mt_ok mt_sort p_call p_out).
  - constructor.
  - reflexivity.
  - apply (proj1 (method_first mtH (TNamed 4) false MCtx false)). vm_compute. reflexivity.
  - apply rc_val; [reflexivity | discriminate].
  - exists [Some (OWithContext (Some 3)); None], []. split; [reflexivity | intros a []].
Qed.
(** map[string]F: the method fails *)
Definition f_t : typ := TMap TString (TNamed 6).
Definition f_v : val := VMap [(VStr (lit "k"), VInt 1)].
Lemma f_call : call mtH (mt_m f_t f_v) f_t (mt_w f_t f_v) f_v [] default_opts.
Proof. mt_call. Qed.
Lemma f_out : marshal_returns mtH (mt_m f_t f_v) (Some (f_t, mt_w f_t f_v)) [] (MErr (EMarshaler (TNamed 6) MApp (IUser 5))).
Proof. mt_run. Qed.
Lemma f_first : first_method mtH (TNamed 6) false MApp.
Proof. apply (proj1 (method_first mtH (TNamed 6) false MApp false)). vm_compute. reflexivity. Qed.
Lemma f_part : part mtH default_opts (f_t, false, false, f_v) (TNamed 6, false, false, VInt 1).
Proof. apply inner_part, (walk_ok mtH default_opts 10 [0%nat]). vm_compute. reflexivity. Qed.
Lemma f_receiver : receiver mtH (TNamed 6) false (VInt 1) (TNamed 6) (VInt 1).
Proof. apply rc_val; [reflexivity | discriminate]. Qed.
Example C37_error_example : exists e', forall r, marshal_returns mtH (mt_m f_t f_v) (Some (f_t, mt_w f_t f_v)) [] r <-> r = MErr e'.
Proof. exact (C37_error_reported mtH mtV _ _ _ _ _ _ _ _ _ _ MApp _ _ 5 mt_ok f_call f_part eq_refl f_first f_receiver eq_refl). Qed.
Example C37_origin_example : exists t' ca q v' td x, part mtH default_opts (f_t, false, false, f_v) (t', ca, q, v') /\ native t' = false /\ first_method mtH t' ca MApp /\
    TNamed 6 = (if by_address mtH t' MApp then TPtr t' else t') /\ receiver mtH t' (by_address mtH t' MApp) v' td x /\ mtV MApp td x None = inr 5.
Proof. exact (C37_error_origin mtH mtV _ _ _ _ _ _ _ _ _ mt_ok f_call f_out). Qed.
Example C37_exact_example : forall r, marshal_returns mtH (mt_m f_t f_v) (Some (f_t, mt_w f_t f_v)) [] r <-> r = MErr (EMarshaler (TNamed 6) MApp (IUser 5)).
Proof.
  refine (C37_error_exact mtH mtV _ _ _ _ _ _ (TNamed 6) false false (VInt 1) MApp _ _ 5 mt_ok f_call f_part eq_refl f_first f_receiver eq_refl _).
  intros y e Hy Hr. inversion Hy as [|? y1 ? Hc Hy1]; subst.
  - exfalso. inversion Hr as [| | | | |? ? ? ? ? ? ? U K| | | |]; subst; try discriminate. cbn in U. injection U as <- <-. discriminate K.
  - inversion Hc as [| | | |? ? ? ? ? ? ? ? ? U ? ? S|? ? ? ? ? ? ? ? ? U ? Hi| | |]; subst; try discriminate.
    + injection U as <- <-. discriminate S.
    + injection U as <- <-. destruct Hi as [[= <- <-]|[]]. inversion Hy1 as [|? y2 ? Hc2 _]; subst; [reflexivity | exfalso].
      inversion Hc2; subst; try discriminate.
Qed.
(** A nil *C *)
Example C37_nil_example : forall vcall, bytes_of mtH vcall default_opts (TPtr (TNamed 0), true, false, VNil) l_null.
Proof. intros vcall. apply C37_nil. left. reflexivity. Qed.

(** Behind a pointer, the methods of *time.Time hide the native encoding. *)
Definition native_behind_pointers (H : host) vcall : Prop := forall m t w v opts o out t' ca q v', call H m t w v opts o -> marshal_returns H m (Some (t, w)) opts (MOk out) ->
  inner H o (t, is_ptr H t, false, v) (TPtr t', ca, q, VPtr v') -> t' = TTime \/ t' = TDuration \/ t' = TNumber \/ t' = TRawMessage ->
  exists b, bytes_of H vcall o (TPtr t', ca, q, VPtr v') b /\ bytes_of H vcall o (t', true, q, v') b.
Theorem C36_pointer_partial H vcall : host_ok H vcall -> sort_ok H ->
  (forall t k, t = TTime \/ t = TDuration \/ t = TNumber \/ t = TRawMessage -> h_impl H (TPtr t) k = false) -> native_behind_pointers H vcall.
Proof.
  intros OK SO N m t w v opts o out t' ca q v' C R Hi T. destruct (call_inner H vcall OK m t w v opts o C out _ SO R Hi) as (b & Hb & _). exists b. split; [exact Hb|].
  destruct Hb as [n Hb]. destruct n as [|n]; [discriminate|]. cbn [venc native] in Hb.
  assert (Hm : method_of H (TPtr t') ca = None). { apply method_none. intros k [A|(A & _)]; [rewrite N in A by exact T; discriminate | discriminate A]. }
  rewrite Hm in Hb. exists n. exact Hb.
Qed.
Definition tp_v : val := VPtr (VTime (mkTime 0 0 0)).
Definition tp_opts : list (option option_) := [Some OUnixTime].
Lemma tp_call : call mtH (mt_m (TPtr TTime) tp_v) (TPtr TTime) (mt_w (TPtr TTime) tp_v) tp_v tp_opts (config tp_opts).
Proof. mt_call. Qed.
Lemma tp_out : marshal_returns mtH (mt_m (TPtr TTime) tp_v) (Some (TPtr TTime, mt_w (TPtr TTime) tp_v)) tp_opts (MOk (lit """1970-01-01T00:00:00Z""")).
Proof. mt_run. Qed.
Theorem C36_pointer_refuted : host_ok mtH mtV /\ sort_ok mtH /\ ~ native_behind_pointers mtH mtV.
Proof.
  split; [exact mt_ok|]. split; [exact mt_sort|]. intros P.
  destruct (P _ _ _ _ _ _ _ TTime true false (VTime (mkTime 0 0 0)) tp_call tp_out (inner_refl _ _ _) (or_introl eq_refl)) as (b & A & B).
  assert (E1 : b = lit """1970-01-01T00:00:00Z""") by (apply (bytes_of_det mtH mtV _ _ _ _ A); exists 3%nat; vm_compute; reflexivity).
  assert (E2 : b = lit "0") by (apply (bytes_of_det mtH mtV _ _ _ _ B); exists 3%nat; vm_compute; reflexivity).
  subst b. discriminate.
Qed.

(** [1]T: the text has a quotation mark, and is copied as it is. *)
Definition tx_t : typ := TArray 1 (TNamed 3).
Definition tx_v : val := VArr [VInt 1].
Lemma tx_call : call mtH (mt_m tx_t tx_v) tx_t (mt_w tx_t tx_v) tx_v [] default_opts.
Proof. mt_call. Qed.
Lemma tx_out : marshal_returns mtH (mt_m tx_t tx_v) (Some (tx_t, mt_w tx_t tx_v)) [] (MOk (lit "[""a""b""]")).
Proof. mt_run. Qed.
Theorem C38_text_refuted : host_ok mtH mtV /\ sort_ok mtH /\ ~ text_correct mtH mtV bytes_ok.
Proof.
  split; [exact mt_ok|]. split; [exact mt_sort|]. intros P.
  destruct (P _ _ _ _ _ _ _ (TNamed 3) false false (VInt 1) (TNamed 3) (VInt 1) (lit "a""b") tx_call tx_out) as (b & us & A & _ & _ & J).
  - apply (walk_ok mtH default_opts 10 [0%nat]). vm_compute. reflexivity.
  - reflexivity.
  - apply (proj1 (method_first mtH (TNamed 3) false MText false)). vm_compute. reflexivity.
  - apply rc_val; [reflexivity | discriminate].
  - reflexivity.
  - apply bytes_okb_ok. reflexivity.
  - assert (E1 : b = lit """a""b""") by (apply (bytes_of_det mtH mtV _ _ _ _ A); exists 3%nat; vm_compute; reflexivity). subst b.
    apply json_no_ws_text in J. apply parse_json_correct in J; [|apply bytes_okb_ok; reflexivity]. vm_compute in J. discriminate.
Qed.
(** U returns ab. *)
Lemma u_call : call mtH (mt_m (TNamed 8) (VInt 1)) (TNamed 8) (mt_w (TNamed 8) (VInt 1)) (VInt 1) [] default_opts.
Proof. mt_call. Qed.
Lemma u_out : marshal_returns mtH (mt_m (TNamed 8) (VInt 1)) (Some (TNamed 8, mt_w (TNamed 8) (VInt 1))) [] (MOk (lit """ab""")).
Proof. mt_run. Qed.
Example C38_example : exists b us, bytes_of mtH mtV default_opts (TNamed 8, false, false, VInt 1) b /\ infix b (lit """ab""") /\ string_units (lit "ab") us /\ json no_ws true (JStr us) b.
Proof.
  apply (C38_text_partial mtH mtV mt_ok mt_sort _ _ _ _ _ _ _ (TNamed 8) false false (VInt 1) (TNamed 8) (VInt 1) (lit "ab") u_call u_out).
  - constructor.
  - reflexivity.
  - apply (proj1 (method_first mtH (TNamed 8) false MText false)). vm_compute. reflexivity.
  - apply rc_val; [reflexivity | discriminate].
  - reflexivity.
  - change (lit "ab") with [97; 98]. exists [97; 98]. split; [apply utf8_ascii_string|]; repeat (apply Forall_cons; [lia|]); apply Forall_nil.
Qed.

(** S holding a quotation mark, and 5 *)
Definition s_v : val := VStruct [VStr [34]; VInt 5].
Lemma s_call : call mtH (mt_m (TNamed 5) s_v) (TNamed 5) (mt_w (TNamed 5) s_v) s_v [] default_opts.
Proof. mt_call. Qed.
Definition s_text : bytes := Eval vm_compute in match MarshalOpts mtH 12 (mt_m (TNamed 5) s_v) (Some (TNamed 5, mt_w (TNamed 5) s_v)) [] with MOk b => b | _ => [] end.
Lemma s_out : marshal_returns mtH (mt_m (TNamed 5) s_v) (Some (TNamed 5, mt_w (TNamed 5) s_v)) [] (MOk s_text).
Proof. mt_run. Qed.

(** Only one byte string has given ASCII units. *)
Lemma ascii_of_units a : forall s, Forall (fun c => 0 <= c < 128) a -> string_units s (map U16 a) -> s = a.
Proof.
  intros s Ha (segs & Hs & E). revert a Ha E. induction Hs as [|r s us Hr _ IH|b s us _ _ IH]; intros a Ha E; cbn [flat_map coerced_units] in E.
  - destruct a; [reflexivity | discriminate].
  - unfold utf16 in E. destruct a as [|c a]; [destruct (r <? 0x10000); discriminate|]. inversion Ha; subst. destruct (r <? 0x10000) eqn:Er; cbn [app map] in E.
    + injection E as <- E. rewrite (IH a) by auto. unfold utf8. replace (c <? 0x80) with true by lia. reflexivity.
    + injection E as E _. unfold scalar in Hr. lia.
  - destruct a as [|c a]; [discriminate|]. cbn [app map] in E. injection E as E _. inversion Ha; subst. lia.
Qed.

(** The string option on the string of one quotation mark: decoding twice does
    not give the value back. *)
Theorem C39_string_refuted : host_ok mtH mtV /\ sort_ok mtH /\ ~ string_option mtH mtV (fun t v => t = TString).
Proof.
  split; [exact mt_ok|]. split; [exact mt_sort|]. intros P.
  destruct (P _ _ _ _ _ _ _ TString false (VStr [34]) s_call ik_esc s_out) as (b & A & _ & us & s & j & J1 & J2 & J3 & _).
  - apply (walk_ok mtH default_opts 10 [0%nat]). vm_compute. reflexivity.
  - reflexivity.
  - reflexivity.
  - reflexivity.
  - assert (E1 : b = [34; 92; 34; 92; 34; 92; 34; 34]) by (apply (bytes_of_det mtH mtV _ _ _ _ A); exists 3%nat; vm_compute; reflexivity). subst b.
    apply json_no_ws_text in J1. apply parse_json_correct in J1; [|apply bytes_okb_ok; reflexivity]. vm_compute in J1. injection J1 as <-.
    apply (ascii_of_units [34; 34; 34]) in J2; [|repeat constructor; lia]. subst s.
    apply cjson_text, json_text_lax, parse_json_correct in J3; [|apply bytes_okb_ok; reflexivity]. vm_compute in J3. discriminate.
Qed.
(** N{"12", 3}: the option is ignored. *)
Definition n_v : val := VStruct [VStr (lit "12"); VInt 3].
Lemma n_call : call mtH (mt_m (TNamed 7) n_v) (TNamed 7) (mt_w (TNamed 7) n_v) n_v [] default_opts.
Proof. mt_call. Qed.
Lemma n_out : marshal_returns mtH (mt_m (TNamed 7) n_v) (Some (TNamed 7, mt_w (TNamed 7) n_v)) [] (MOk (lit "{""N"":12,""D"":3}")).
Proof. mt_run. Qed.
Theorem C39_native_refuted : host_ok mtH mtV /\ sort_ok mtH /\ ~ string_option mtH mtV (fun t v => t = TNumber) /\ ~ string_option mtH mtV (fun t v => t = TDuration).
Proof.
  split; [exact mt_ok|]. split; [exact mt_sort|]. split; intros P.
  - destruct (P _ _ _ _ _ _ _ TNumber false (VStr (lit "12")) n_call ik_esc n_out) as (b & A & _ & us & s & j & J1 & _); try reflexivity.
    + apply (walk_ok mtH default_opts 10 [0%nat]). vm_compute. reflexivity.
    + assert (E1 : b = lit "12") by (apply (bytes_of_det mtH mtV _ _ _ _ A); exists 3%nat; vm_compute; reflexivity). subst b. inversion J1.
  - destruct (P _ _ _ _ _ _ _ TDuration false (VInt 3) n_call ik_esc n_out) as (b & A & _ & us & s & j & J1 & _); try reflexivity.
    + apply (walk_ok mtH default_opts 10 [1%nat]). vm_compute. reflexivity.
    + assert (E1 : b = lit "3") by (apply (bytes_of_det mtH mtV _ _ _ _ A); exists 3%nat; vm_compute; reflexivity). subst b. inversion J1.
Qed.
(** The other field of S, and the string ab. *)
Example C39_example : exists b, bytes_of mtH mtV default_opts (TInt KInt, false, true, VInt 5) b /\ infix b s_text /\ doubly_encoded mtH mtV default_opts (TInt KInt) false (VInt 5) b.
Proof.
  apply (C39_string_option_partial mtH mtV mt_ok ex_shortest mt_sort _ _ _ _ _ _ _ _ _ _ s_call ik_esc s_out).
  - apply (walk_ok mtH default_opts 10 [1%nat]). vm_compute. reflexivity.
  - reflexivity.
  - reflexivity.
  - split; [discriminate|]. split; discriminate.
Qed.
Definition ab_s : val := VStruct [VStr (lit "ab"); VInt 5].
Lemma abs_call : call mtH (mt_m (TNamed 5) ab_s) (TNamed 5) (mt_w (TNamed 5) ab_s) ab_s [] default_opts.
Proof. mt_call. Qed.
Definition abs_text : bytes := Eval vm_compute in match MarshalOpts mtH 12 (mt_m (TNamed 5) ab_s) (Some (TNamed 5, mt_w (TNamed 5) ab_s)) [] with MOk b => b | _ => [] end.
Lemma abs_out : marshal_returns mtH (mt_m (TNamed 5) ab_s) (Some (TNamed 5, mt_w (TNamed 5) ab_s)) [] (MOk abs_text).
Proof. mt_run. Qed.
Example C39_string_example : exists b, bytes_of mtH mtV default_opts (TString, false, true, VStr (lit "ab")) b /\ infix b abs_text /\ doubly_encoded mtH mtV default_opts TString false (VStr (lit "ab")) b.
Proof.
  apply (C39_string_option_partial mtH mtV mt_ok ex_shortest mt_sort _ _ _ _ _ _ _ _ _ _ abs_call ik_esc abs_out).
  - apply (walk_ok mtH default_opts 10 [0%nat]). vm_compute. reflexivity.
  - reflexivity.
  - reflexivity.
  - split; [discriminate|]. split; [discriminate|]. intros s [= <-]. exists [inl 97; inl 98]. split.
    + apply (sg_rune 97 [98]); [unfold scalar; lia|]. apply (sg_rune 98 []); [unfold scalar; lia | constructor].
    + repeat (apply Forall_cons; [cbn; lia|]). apply Forall_nil.
Qed.

(** L with all members nil *)
Definition l_v : val := VStruct [VNil; VNil; VNil].
Definition l_opts : list (option option_) := [Some ONilSliceEmpty].
Lemma l_call : call mtH (mt_m (TNamed 9) l_v) (TNamed 9) (mt_w (TNamed 9) l_v) l_v l_opts (config l_opts).
Proof. mt_call. Qed.
Lemma l_out : marshal_returns mtH (mt_m (TNamed 9) l_v) (Some (TNamed 9, mt_w (TNamed 9) l_v)) l_opts (MOk (lit "{""M"":null,""S"":[],""B"":null}")).
Proof. mt_run. Qed.
Theorem C40_bytes_refuted : host_ok mtH mtV /\ sort_ok mtH /\ ~ nil_correct mtH mtV (fun t => t = TSlice (TInt KUint8)).
Proof.
  split; [exact mt_ok|]. split; [exact mt_sort|]. intros P.
  destruct (P _ _ _ _ _ _ _ (TSlice (TInt KUint8)) false false l_call l_out) as (b & A & _ & T & _).
  - apply (walk_ok mtH (config l_opts) 10 [2%nat]). vm_compute. reflexivity.
  - split; reflexivity.
  - reflexivity.
  - assert (E1 : b = l_null) by (apply (bytes_of_det mtH mtV _ _ _ _ A); exists 3%nat; vm_compute; reflexivity). subst b. discriminate (T (or_introl eq_refl)).
Qed.
Example C40_example : exists b, bytes_of mtH mtV (config l_opts) (TSlice (TInt KInt), false, false, VNil) b /\ infix b (lit "{""M"":null,""S"":[],""B"":null}") /\ nil_text mtH l_opts (TSlice (TInt KInt)) b.
Proof.
  apply (C40_nil_partial mtH mtV mt_ok mt_sort _ _ _ _ _ _ _ _ _ _ l_call l_out).
  - apply (walk_ok mtH (config l_opts) 10 [1%nat]). vm_compute. reflexivity.
  - split; reflexivity.
  - intros e [= <-]. reflexivity.
Qed.
Definition e_v : val := VStruct [VMap []; VSlice []; VSlice []].
Lemma e_call : call mtH (mt_m (TNamed 9) e_v) (TNamed 9) (mt_w (TNamed 9) e_v) e_v [] default_opts.
Proof. mt_call. Qed.
Lemma e_out : marshal_returns mtH (mt_m (TNamed 9) e_v) (Some (TNamed 9, mt_w (TNamed 9) e_v)) [] (MOk (lit "{""M"":{},""S"":[],""B"":""""}")).
Proof. mt_run. Qed.
Example C40_empty_example : infix (lit "{}") (lit "{""M"":{},""S"":[],""B"":""""}") /\ bytes_of mtH mtV default_opts (TMap TString (TInt KInt), false, false, VMap []) (lit "{}").
Proof.
  refine (proj1 (C40_empty mtH mtV _ _ _ _ _ _ _ (TMap TString (TInt KInt)) false false (VMap []) mt_ok mt_sort e_call e_out _ _) eq_refl); [|split; reflexivity].
  apply (walk_ok mtH default_opts 10 [0%nat]). vm_compute. reflexivity.
Qed.

Print Assumptions C36_first_partial.
Print Assumptions C36_none_partial.
Print Assumptions C36_native.
Print Assumptions C36_sync.
Print Assumptions C37_error_reported.
Print Assumptions C37_error_origin.
Print Assumptions C37_error_exact.
Print Assumptions C37_nil.
Print Assumptions C37_context.
Print Assumptions C38_text_partial.
Print Assumptions C39_string_option_partial.
Print Assumptions C39_scalar.
Print Assumptions C40_nil_partial.
Print Assumptions C40_empty.
Print Assumptions C36_embedded_refuted.
Print Assumptions C36_pointer_partial.
Print Assumptions C36_pointer_refuted.
Print Assumptions C38_text_refuted.
Print Assumptions C39_string_refuted.
Print Assumptions C39_native_refuted.
Print Assumptions C40_bytes_refuted.
