(** C15 and C46: byte slices and byte arrays. *)
From Verif Require Import Base Utf8 JsonSpec NumberModel OptionsModel EscapeModel EscapeProof CompactModel CompactProof IntModel IntProof TypesModel TypesFacts TagsModel CalendarSpec TimeModel
  FloatModel LeafModel LeafProof MemModel FieldsModel Base64Model InstrModel ExecModel ValueModel ExecMono ExecProof HostFacts VencFacts MarshalThm Base64Proof DocSpec EntriesFacts DocLeaf PartFacts DocProof ApiFacts
  PartsThm ShapeThm CallFacts AppendThm ExampleHost ExampleVals ExampleConst ExampleRead Properties_Options Properties_Strings Properties_Members Properties_Maps Properties_Api Properties_Marshalers
  ConcModel ConcLogic ConcHeap ConcRun ConcCalls ConcExec Properties_Conc.

(** ** C15: the growth of the buffer *)
(** Writes stay within the slice, and slices within their arrays. *)
Definition in_bounds (S : shared) (x : op) : Prop :=
  match x with
  | OWrite s i b => (i + length b <= s_len s)%nat /\ (s_len s <= length (sh_heap S (s_arr s)))%nat
  | OCopy d s => (s_len d <= length (sh_heap S (s_arr d)))%nat /\ (s_len s <= length (sh_heap S (s_arr s)))%nat
  | OAppend s _ | OCap s => (s_len s <= length (sh_heap S (s_arr s)))%nat
  | _ => True
  end.

(** Every execution from S ends, without panic, in a state and with a result
    satisfying Q; I holds throughout and every access is within bounds. *)
Inductive must {A} (H : host) (I : shared -> Prop) (Q : shared -> A -> Prop) (S : shared) : prog A -> Prop :=
| must_ret x : I S -> Q S x -> must H I Q S (PRet x)
| must_op x k : I S -> in_bounds S x -> (exists S' r, opstep H S x S' r) -> (forall S' r, opstep H S x S' r -> must H I Q S' (k r)) -> must H I Q S (POp x k).

(** The first bytes of dst stay as they are, and so do all other arrays. *)
Definition untouched (S : shared) (s : slice) (S' : shared) : Prop :=
  firstn (s_len s) (sh_heap S' (s_arr s)) = firstn (s_len s) (sh_heap S (s_arr s)) /\
  length (sh_heap S' (s_arr s)) = length (sh_heap S (s_arr s)) /\
  forall a, (a < sh_next S)%nat -> a <> s_arr s -> sh_heap S' a = sh_heap S a.

Definition at_slice (S : shared) (s : slice) (d : bytes) : Prop :=
  (s_arr s < sh_next S)%nat /\ s_len s = length d /\ exists r, sh_heap S (s_arr s) = d ++ r.

Section Growth.
  Variables (H : host) (S0 : shared) (s0 : slice) (d0 : bytes).
  Hypothesis A0 : at_slice S0 s0 d0.
  Notation inv := (untouched S0 s0).
  (** A slice that grew out of s0. *)
  Definition grown (s : slice) : Prop := (s_len s0 <= s_len s)%nat /\ (s_arr s = s_arr s0 \/ (sh_next S0 <= s_arr s)%nat).

  Lemma at_len S s d : at_slice S s d -> (s_len s <= length (sh_heap S (s_arr s)))%nat.
  Proof. intros (_ & -> & r & ->). rewrite app_length. lia. Qed.
  Lemma keep_arr S s c : inv S -> grown s -> length c = length (sh_heap S (s_arr s)) -> firstn (s_len s) c = firstn (s_len s) (sh_heap S (s_arr s)) -> inv (with_arr S (s_arr s) c).
  Proof.
    intros (I1 & I2 & I3) (G1 & G2) Hl Hf. unfold untouched. cbn [with_arr with_heap sh_heap]. unfold set_arr. split; [|split].
    - destruct (Nat.eqb_spec (s_arr s0) (s_arr s)) as [E|]; [|exact I1]. rewrite <- I1.
      assert (X := f_equal (firstn (s_len s0)) Hf). rewrite !firstn_firstn, !Nat.min_l in X by lia. rewrite X, E. reflexivity.
    - destruct (Nat.eqb_spec (s_arr s0) (s_arr s)) as [E|]; [|exact I2]. rewrite <- I2, Hl, E. reflexivity.
    - intros a Ha Hne. destruct (Nat.eqb_spec a (s_arr s)) as [E|]; [lia|auto].
  Qed.
  Lemma keep_new S c : inv S -> (sh_next S0 <= sh_next S)%nat -> inv (with_new S c).
  Proof.
    intros (I1 & I2 & I3) Hn. unfold untouched. cbn [with_new with_heap sh_heap]. unfold set_arr. destruct A0 as (L0 & _).
    destruct (Nat.eqb_spec (s_arr s0) (sh_next S)) as [E|]; [lia|]. split; [exact I1|]. split; [exact I2|]. intros a Ha Hne. destruct (Nat.eqb_spec a (sh_next S)); [lia|auto].
  Qed.

  Lemma must_append {A} (Q : shared -> A -> Prop) S s d b k : inv S -> at_slice S s d -> grown s -> (sh_next S0 <= sh_next S)%nat ->
    (forall S' s', inv S' -> at_slice S' s' (d ++ b) -> grown s' -> (sh_next S0 <= sh_next S')%nat -> must H inv Q S' (k s')) -> must H inv Q S (PAppend s b k).
  Proof.
    intros Hi Ha Hg Hn Hk. assert (L := at_len _ _ _ Ha). destruct Ha as (L1 & L2 & r & Hr). apply must_op; [exact Hi | exact L | |].
    - destruct (Nat.le_gt_cases (s_len s + length b) (length (sh_heap S (s_arr s)))) as [E|E]; eexists _, _; constructor; [apply at_fits; exact E | apply (at_grow S s b []); exact E].
    - intros S' x St. inversion St as [s1 b1 S1 s' At| | | | | | | | | | | | | | | | | | | | | | | | | | | | | | | | | | | | |]; subst. cbn [to_slice]. destruct Hg as [G1 G2]. inversion At as [Hf|junk Hf]; subst.
      + rewrite Hr, app_length in Hf. apply Hk.
        * apply keep_arr; [exact Hi | split; assumption | |].
          -- apply overwrite_length. rewrite Hr, app_length. lia.
          -- unfold overwrite. rewrite firstn_app, firstn_firstn, Nat.min_id, firstn_length, Nat.min_l by lia. rewrite Nat.sub_diag, firstn_O, app_nil_r. reflexivity.
        * split; [exact L1|]. cbn [s_len s_arr]. split; [rewrite app_length; lia|]. cbn [with_arr with_heap sh_heap]. unfold set_arr. rewrite Nat.eqb_refl. rewrite Hr, L2, overwrite_at by lia. eexists. apply app_assoc.
        * split; cbn [s_len s_arr]; [lia | exact G2].
        * exact Hn.
      + apply Hk.
        * apply keep_new; assumption.
        * split; cbn [s_len s_arr with_new with_heap sh_next sh_heap]; [lia|]. split; [rewrite app_length; lia|]. unfold set_arr. rewrite Nat.eqb_refl, Hr, L2, firstn_app, Nat.sub_diag, firstn_O, firstn_all, app_nil_r. eexists. apply app_assoc.
        * split; cbn [s_len s_arr]; lia.
        * cbn. lia.
  Qed.
  Lemma must_cap {A} (Q : shared -> A -> Prop) S s d k : inv S -> at_slice S s d -> must H inv Q S (k (length (sh_heap S (s_arr s)))) -> must H inv Q S (PCap s k).
  Proof.
    intros Hi Ha Hk. apply must_op; [exact Hi | exact (at_len _ _ _ Ha) | eexists _, _; constructor|]. intros S' x St. inversion St; subst. exact Hk.
  Qed.
End Growth.

(** encodeByteSlice on a slice of any length and capacity holding d0. *)
Theorem C15_growth H o b S0 s0 d0 : bytes_ok b -> has (o_flags o) rawByteSlice = false -> at_slice S0 s0 d0 ->
  must H (untouched S0 s0) (fun S r => snd r = None /\ exists txt, base64_text txt b /\ at_slice S (fst r) (d0 ++ 34 :: txt ++ [34])) S0 (byte_slice_prog o (Some b) s0).
Proof.
  intros Hb Hf A0. assert (Ht := base64_correct b Hb). match goal with |- must _ _ ?q _ _ => set (Q := q) end.
  assert (G0 : grown S0 s0 s0) by (split; auto). assert (I0 : untouched S0 s0 S0) by (split; auto).
  assert (Hn : Z.to_nat (b64_len (Z.of_nat (length b))) = length (base64 b)) by (rewrite <- (base64_text_length _ _ Ht); lia).
  unfold byte_slice_prog. rewrite Hf, Hn. clear Hn. set (t := base64 b) in *.
  apply (must_append H S0 s0 d0 A0 Q S0 s0 d0 [34]); auto. intros S1 s1 I1 A1 G1 N1.
  (* writing, when there is room *)
  assert (Wr : forall S2 s2, untouched S0 s0 S2 -> at_slice S2 s2 (d0 ++ [34]) -> grown S0 s0 s2 -> (sh_next S0 <= sh_next S2)%nat -> (s_len s2 + length t <= length (sh_heap S2 (s_arr s2)))%nat ->
    must H (untouched S0 s0) Q S2 (PCap s2 (fun cap => if (cap <? s_len s2 + length t)%nat || (length t <? length t)%nat then PPanic
      else PWrite (mkSl (s_arr s2) (s_len s2 + length t)) (s_len s2) t (emit (mkSl (s_arr s2) (s_len s2 + length t)) [34])))).
  { intros S2 s2 I2 A2 G2 N2 Room. eapply must_cap; eauto. destruct A2 as (B1 & B2 & r & B3).
    replace (length (sh_heap S2 (s_arr s2)) <? s_len s2 + length t)%nat with false by lia. replace (length t <? length t)%nat with false by lia. cbn [orb].
    apply must_op; [exact I2 | cbn [in_bounds s_len s_arr]; lia | eexists _, _; constructor|]. intros S' x St. inversion St; subst. cbn [to_unit s_arr]. clear St.
    assert (Hlr : (length t <= length r)%nat) by (rewrite B3, app_length in Room; lia).
    apply (must_append H S0 s0 d0 A0 Q _ _ ((d0 ++ [34]) ++ t)).
    - apply keep_arr; auto; [apply overwrite_length; exact Room|]. unfold overwrite. rewrite firstn_app, firstn_firstn, Nat.min_id, firstn_length, Nat.min_l by lia. rewrite Nat.sub_diag, firstn_O, app_nil_r. reflexivity.
    - split; [exact B1|]. cbn [s_len s_arr with_arr with_heap sh_heap]. split; [rewrite (app_length (d0 ++ [34]) t); lia|]. unfold set_arr. rewrite Nat.eqb_refl, B3, B2, overwrite_at by exact Hlr. eexists. apply app_assoc.
    - destruct G2 as [G2 G3]. split; cbn [s_len s_arr]; [lia | exact G3].
    - exact N2.
    - intros S3 s3 I3 A3 G3 N3. apply must_ret; [exact I3|]. split; [reflexivity|]. exists t. split; [exact Ht|]. cbn [fst ok_s]. rewrite <- !app_assoc in A3. exact A3. }
  eapply must_cap; eauto. assert (A1' := A1). destruct A1' as (B1 & B2 & r & B3). assert (L1 := at_len _ _ _ A1). set (cap := length (sh_heap S1 (s_arr s1))) in *.
  destruct (cap - s_len s1 <? length t)%nat eqn:Er; [|apply Wr; auto; fold cap; lia].
  assert (Big : (s_len s1 + length t <= cap + (length t - (cap - s_len s1)))%nat) by lia. set (big := (cap + (length t - (cap - s_len s1)))%nat) in *.
  apply must_op; [exact I1 | exact I | eexists _, _; constructor|]. intros S2 x St. inversion St; subst. cbn [to_slice s_arr]. clear St.
  assert (I2 : untouched S0 s0 (with_new S1 (repeat 0 big))) by (eapply keep_new; eauto).
  assert (Hh : forall a, (a < sh_next S1)%nat -> sh_heap (with_new S1 (repeat 0 big)) a = sh_heap S1 a) by (intros a Ha; cbn [with_new with_heap sh_heap]; unfold set_arr; destruct (Nat.eqb_spec a (sh_next S1)); [lia|reflexivity]).
  assert (Hg : sh_heap (with_new S1 (repeat 0 big)) (sh_next S1) = repeat 0 big) by (cbn [with_new with_heap sh_heap]; unfold set_arr; rewrite Nat.eqb_refl; reflexivity).
  assert (Nx : sh_next (with_new S1 (repeat 0 big)) = Datatypes.S (sh_next S1)) by reflexivity. set (S2 := with_new S1 (repeat 0 big)) in *.
  assert (Ec : firstn (Nat.min big (s_len s1)) (sh_heap S2 (s_arr s1)) = d0 ++ [34]).
  { rewrite Hh by exact B1. rewrite Nat.min_r by lia. rewrite B3, B2, firstn_app, Nat.sub_diag, firstn_O, firstn_all, app_nil_r. reflexivity. }
  apply must_op; [exact I2 | cbn [in_bounds s_len s_arr]; rewrite Hg, repeat_length, Hh by exact B1; fold cap; lia | eexists _, _; constructor|].
  intros S3 x St. inversion St; subst. cbn [to_unit s_arr s_len]. rewrite Ec. clear St.
  assert (Hov : overwrite (sh_heap S2 (sh_next S1)) 0 (d0 ++ [34]) = (d0 ++ [34]) ++ skipn (length (d0 ++ [34])) (repeat 0 big)) by (rewrite Hg; unfold overwrite; rewrite firstn_O; reflexivity).
  assert (Lov : length (overwrite (sh_heap S2 (sh_next S1)) 0 (d0 ++ [34])) = big) by (rewrite Hov, app_length, skipn_length, repeat_length; lia).
  assert (Hs : forall c, sh_heap (with_arr S2 (sh_next S1) c) (sh_next S1) = c) by (intros c; cbn [with_arr with_heap sh_heap]; unfold set_arr; rewrite Nat.eqb_refl; reflexivity).
  apply Wr.
  - destruct I2 as (J1 & J2 & J3). destruct A0 as (Z1 & _). unfold untouched. cbn [with_arr with_heap sh_heap]. unfold set_arr. destruct (Nat.eqb_spec (s_arr s0) (sh_next S1)); [lia|].
    split; [exact J1|]. split; [exact J2|]. intros a Ha Hne. destruct (Nat.eqb_spec a (sh_next S1)); [lia | auto].
  - split; cbn [s_arr s_len]; [cbn [with_arr with_heap sh_next]; lia|]. split; [exact B2|]. rewrite Hs, Hov. eauto.
  - destruct G1 as [G1 _]. split; cbn [s_len s_arr]; [exact G1 | lia].
  - cbn [with_arr with_heap sh_next]. lia.
  - cbn [s_arr s_len]. rewrite Hs, Lov. exact Big.
Qed.

(** ** C15, C46: the text of byte slices and arrays *)
(** Types whose slices and arrays are byte strings: bytes without MarshalJSON
    and MarshalText. *)
Definition byte_type (H : host) (e : typ) : Prop :=
  under (h_env H) e = TInt KUint8 /\ h_impl H (TPtr e) MJson = false /\ h_impl H (TPtr e) MText = false.
Lemma byte_type_elem H e : byte_type H e <-> byte_elem H e = true.
Proof.
  unfold byte_type, byte_elem. split.
  - intros (-> & -> & ->). reflexivity.
  - destruct (under (h_env H) e) as [ |[]| | | | | | | | | | | | | | | | | | ]; try discriminate. destruct (h_impl H (TPtr e) MJson), (h_impl H (TPtr e) MText); try discriminate. auto.
Qed.
Lemma vbytes_inv vs b : vbytes vs = Some b -> vs = map VInt b.
Proof.
  revert b. induction vs as [|v vs IH]; intros b; cbn [vbytes]; [intros [= <-]; reflexivity|]. destruct v; try discriminate.
  destruct (vbytes vs) as [bs|]; [|discriminate]. intros [= <-]. cbn [map]. f_equal. apply IH. reflexivity.
Qed.

(** The JSON string of some bytes: verbatim with NoStringEscaping; else a
    literal whose content is the text, invalid bytes kept with NoUTF8Coercion and
    replaced by U+FFFD without. *)
Definition string_of (opts : list (option option_)) (b out : bytes) : Prop :=
  (In (Some ONoStringEscaping) opts -> out = 34 :: b ++ [34]) /\
  (~ In (Some ONoStringEscaping) opts -> In (Some ONoUTF8Coercion) opts ->
    exists segs, segments b segs /\ json no_ws true (JStr (flat_map (fun u => match u with inl r => utf16 r | inr x => [Raw x] end) segs)) out) /\
  (~ In (Some ONoStringEscaping) opts -> ~ In (Some ONoUTF8Coercion) opts ->
    exists segs, segments b segs /\ cjson (JStr (flat_map (fun u => match u with inl r => utf16 r | inr _ => [U16 0xFFFD] end) segs)) out).

Lemma string_of_encode opts b : bytes_ok b -> string_of opts b (encode_string [] b (config opts)).
Proof.
  intros Hb. assert (F1 := C16_flags opts ONoStringEscaping noStringEscaping ltac:(cbn; tauto)). assert (F2 := C16_flags opts ONoUTF8Coercion noUTF8Coercion ltac:(cbn; tauto)).
  split; [|split].
  - intros X. apply F1 in X. rewrite encode_string_body by exact Hb. unfold escaped, appendEscapedBytes, appendEscapedBytes_opt. rewrite X. reflexivity.
  - intros X Y. apply F2 in Y. destruct (has (o_flags (config opts)) noStringEscaping) eqn:E; [destruct X; apply F1; reflexivity|].
    destruct (segments_total b Hb) as (segs & Hs). exists segs. split; [exact Hs|]. rewrite encode_string_body by exact Hb. constructor. rewrite (escaped_segments _ b segs Hb Hs E), Y.
    rewrite (flat_map_ext _ (seg_units true)) by (intros [r|x]; reflexivity). apply (escaped_jchars true _ b segs Hb Hs).
  - intros X Y. destruct (has (o_flags (config opts)) noStringEscaping) eqn:E; [destruct X; apply F1; reflexivity|]. destruct (has (o_flags (config opts)) noUTF8Coercion) eqn:E2; [destruct Y; apply F2; reflexivity|].
    destruct (segments_total b Hb) as (segs & Hs). exists segs. split; [exact Hs|]. apply encode_string_json; [exact Hb | split; assumption | exists segs; split; [exact Hs | reflexivity]].
Qed.

(** The base64 text of the slice, in quotes; no other bytes have this text. *)
Definition base64_string (b out : bytes) : Prop := exists txt, out = 34 :: txt ++ [34] /\ base64_text txt b /\ forall b', base64_text txt b' -> b' = b.

Section Call.
  Variables (H : host) (vcall : mkind -> typ -> val -> option Z -> bytes + Z).
  Hypothesis (OK : host_ok H vcall) (SO : sort_ok H).
  Variables (m : mem) (t : typ) (w : Z) (v : val) (opts : list (option option_)) (o : encOpts) (out : bytes).
  Hypothesis (C : call H m t w v opts o) (R : marshal_returns H m (Some (t, w)) opts (MOk out)).

  Lemma slice_part t' ca q vs e : inner H o (t, is_ptr H t, false, v) (t', ca, q, VSlice vs) -> DocSpec.plain H t' ca -> under (h_env H) t' = TSlice e -> byte_type H e ->
    exists b txt, vs = map VInt b /\ bytes_ok b /\ bytes_of H vcall o (t', ca, q, VSlice vs) txt /\ infix txt out /\ txt = encode_byte_slice (Some b) [] o.
  Proof.
    intros Hi [P1 P2] U Bt. apply byte_type_elem in Bt. destruct (call_inner H vcall OK m t w v opts o C out _ SO R Hi) as (x & Hb & Hf). assert (Hb0 := Hb).
    assert (Hh := part_held H vcall OK o m _ _ (call_held H vcall OK m t w v opts o C) (inner_part _ _ _ _ Hi)). destruct Hh as (Ht & l & Hl).
    destruct Hb as [n Hb]. destruct n as [|n]; [discriminate|]. cbn [venc] in Hb. rewrite P1, P2 in Hb. unfold vkind in Hb. rewrite U, Bt in Hb.
    destruct (vbytes vs) as [b|] eqn:Eb; [|discriminate]. injection Hb as Hb. exists b, x. split; [apply vbytes_inv, Eb|].
    split; [eapply (vbytes_ok H); eauto; apply byte_elem_under; exact Bt|]. auto.
  Qed.

  Theorem C15_value t' ca q vs e : inner H o (t, is_ptr H t, false, v) (t', ca, q, VSlice vs) -> DocSpec.plain H t' ca -> under (h_env H) t' = TSlice e -> byte_type H e -> ~ In (Some ORawByteSlice) opts ->
    exists b txt, vs = map VInt b /\ bytes_of H vcall o (t', ca, q, VSlice vs) txt /\ infix txt out /\ base64_string b txt.
  Proof.
    intros Hi P U Bt N. destruct (slice_part t' ca q vs e Hi P U Bt) as (b & txt & E1 & Hb & E2 & E3 & E4). exists b, txt. split; [exact E1|]. split; [exact E2|]. split; [exact E3|].
    assert (F := C16_flags opts ORawByteSlice rawByteSlice ltac:(cbn; tauto)). rewrite <- (call_config opts o (c_opts _ _ _ _ _ _ _ C)) in F.
    unfold encode_byte_slice in E4. destruct (has (o_flags o) rawByteSlice); [destruct N; apply F; reflexivity|]. exists (base64 b). assert (B := base64_correct b Hb).
    split; [exact E4|]. split; [exact B|]. intros b' Hb'. eapply base64_text_det; eauto.
  Qed.

  Theorem C46_slice t' ca q vs e : inner H o (t, is_ptr H t, false, v) (t', ca, q, VSlice vs) -> DocSpec.plain H t' ca -> under (h_env H) t' = TSlice e -> byte_type H e -> In (Some ORawByteSlice) opts ->
    exists b txt, vs = map VInt b /\ bytes_of H vcall o (t', ca, q, VSlice vs) txt /\ infix txt out /\ string_of opts b txt.
  Proof.
    intros Hi P U Bt Y. destruct (slice_part t' ca q vs e Hi P U Bt) as (b & txt & E1 & Hb & E2 & E3 & E4). exists b, txt. split; [exact E1|]. split; [exact E2|]. split; [exact E3|].
    assert (F := C16_flags opts ORawByteSlice rawByteSlice ltac:(cbn; tauto)). rewrite <- (call_config opts o (c_opts _ _ _ _ _ _ _ C)) in F. apply F in Y.
    unfold encode_byte_slice in E4. rewrite Y in E4. rewrite E4, (call_config opts o (c_opts _ _ _ _ _ _ _ C)). apply (string_of_encode opts b Hb).
  Qed.

  Lemma array_part t' ca q vs k e : inner H o (t, is_ptr H t, false, v) (t', ca, q, VArr vs) -> under (h_env H) t' = TArray k e -> under (h_env H) e = TInt KUint8 ->
    exists b, vs = map VInt b /\ length b = k /\ bytes_ok b.
  Proof.
    intros Hi U Bt. assert (Hh := part_held H vcall OK o m _ _ (call_held H vcall OK m t w v opts o C) (inner_part _ _ _ _ Hi)). destruct Hh as (Ht & l & Hl).
    destruct (inv_arr H m _ _ _ Hl) as (e0 & Q1 & Q2). rewrite U in Q1. injection Q1 as -> <-.
    assert (G : forall x, In x vs -> exists l', repr H m l' e x) by (intros x Hx; destruct (In_nth_error _ _ Hx) as [j Hj]; eauto).
    assert (V : exists b, vbytes vs = Some b).
    { destruct (vbytes vs) as [b|] eqn:Eb; [eauto|]. destruct (SafeProof.held_bytes H m vs e Bt G Eb). }
    destruct V as [b Hb]. exists b. assert (E := vbytes_inv _ _ Hb). split; [exact E|]. split; [rewrite E, map_length; reflexivity | eapply (vbytes_arr_ok H); eauto].
  Qed.

  Theorem C46_array_string t' ca q vs k e : inner H o (t, is_ptr H t, false, v) (t', ca, q, VArr vs) -> DocSpec.plain H t' ca -> under (h_env H) t' = TArray k e -> byte_type H e -> In (Some OByteArrayAsString) opts ->
    exists b txt, vs = map VInt b /\ length b = k /\ bytes_of H vcall o (t', ca, q, VArr vs) txt /\ infix txt out /\ string_of opts b txt.
  Proof.
    intros Hi [P1 P2] U Bt Y. destruct (array_part t' ca q vs k e Hi U (proj1 Bt)) as (b & E1 & E2 & Hb). apply byte_type_elem in Bt. destruct (call_inner H vcall OK m t w v opts o C out _ SO R Hi) as (x & Hx & Hf).
    assert (F := C16_flags opts OByteArrayAsString byteArrayAsString ltac:(cbn; tauto)). rewrite <- (call_config opts o (c_opts _ _ _ _ _ _ _ C)) in F. apply F in Y.
    exists b, x. split; [exact E1|]. split; [exact E2|]. split; [exact Hx|]. split; [exact Hf|].
    destruct Hx as [n Hx]. destruct n as [|n]; [discriminate|]. cbn [venc] in Hx. rewrite P1, P2 in Hx. unfold vkind in Hx. rewrite U, Bt, Y in Hx. cbn [andb] in Hx.
    rewrite E1, vbytes_map in Hx. injection Hx as <-. rewrite (call_config opts o (c_opts _ _ _ _ _ _ _ C)). apply string_of_encode, Hb.
  Qed.

  (** Elements with a method of their own are encoded by it. *)
  Theorem C46_array_numbers t' ca q vs k e : inner H o (t, is_ptr H t, false, v) (t', ca, q, VArr vs) -> DocSpec.plain H t' ca -> under (h_env H) t' = TArray k e -> byte_type H e -> DocSpec.plain H e ca ->
    ~ In (Some OByteArrayAsString) opts ->
    exists b ns txt, vs = map VInt b /\ length b = k /\ Forall2 int_lit ns b /\ bytes_of H vcall o (t', ca, q, VArr vs) txt /\ infix txt out /\ cjson (JArr (map JNum ns)) txt.
  Proof.
    intros Hi P U Bt Pe N. destruct (array_part t' ca q vs k e Hi U (proj1 Bt)) as (b & E1 & E2 & Hb). destruct (call_inner H vcall OK m t w v opts o C out _ SO R Hi) as (x & Hx & Hf).
    assert (F := C16_flags opts OByteArrayAsString byteArrayAsString ltac:(cbn; tauto)). rewrite <- (call_config opts o (c_opts _ _ _ _ _ _ _ C)) in F.
    assert (Y : has (o_flags o) byteArrayAsString = false) by (destruct (has (o_flags o) byteArrayAsString); [destruct N; apply F; reflexivity | reflexivity]).
    destruct (array_bytes H vcall o t' ca q k e vs x P U ltac:(rewrite Y, andb_false_r; reflexivity) Hx) as (ns & Hn & ->).
    assert (G : Forall2 int_lit ns b).
    { clear - Hn E1 Pe Bt Hb. subst vs. revert ns Hn. induction b as [|z b IH]; intros ns Hn; inversion Hn as [|? y ? ns' Hy Hn']; subst; constructor.
      - destruct Hy as [n Hy]. destruct n as [|n]; [discriminate|]. cbn [venc] in Hy. destruct Pe as [P1 P2]. rewrite P1, P2 in Hy. unfold vkind in Hy. rewrite (proj1 Bt) in Hy. inversion Hb; subst.
        destruct (encode_int_spec KUint8 z []) as (s & Es & Hs'). { unfold is_byte in *; cbn; lia. } cbn [app vquote_if] in *. rewrite Es in Hy. injection Hy as <-. exact Hs'.
      - apply IH; [inversion Hb; assumption | exact Hn']. }
    exists b, ns, (join_elems true ns). split; [exact E1|]. split; [exact E2|]. split; [exact G|]. split; [exact Hx|]. split; [exact Hf|].
    apply json_join. clear - G. induction G as [|s z ns b Hs _ IH]; constructor; [apply j_num, (int_lit_jnumber _ _ Hs) | exact IH].
  Qed.
End Call.
Print Assumptions C15_growth.
Print Assumptions C15_value.
Print Assumptions C46_slice.
Print Assumptions C46_array_string.
Print Assumptions C46_array_numbers.

(** ** Instances *)
(** A slice of two bytes with room for 0, 1, 5, 6, 9 and 10 more, to which the
    eight bytes of four base64 digits each and two quotes are added. *)
Definition grow_sh (spare : nat) : shared := with_new (g_sh g_init) (lit "ab" ++ repeat 0 spare).
Lemma grow_at spare : at_slice (grow_sh spare) (mkSl 0 2) (lit "ab").
Proof. split; [cbn; lia|]. split; [reflexivity|]. exists (repeat 0 spare). reflexivity. Qed.
Example C15_growth_example : Forall (fun spare => must mapH (untouched (grow_sh spare) (mkSl 0 2))
    (fun S r => snd r = None /\ exists txt, base64_text txt [0; 16; 131; 255] /\ at_slice S (fst r) (lit "ab" ++ 34 :: txt ++ [34]))
    (grow_sh spare) (byte_slice_prog default_opts (Some [0; 16; 131; 255]) (mkSl 0 2))) [0; 1; 5; 6; 9; 10]%nat.
Proof. apply Forall_forall. intros n _. apply C15_growth; [apply bytes_okb_ok; reflexivity | reflexivity | apply grow_at]. Qed.
Example C15_text_example : base64_text (lit "ABCD/w==") [0; 16; 131; 255].
Proof. exact (base64_correct [0; 16; 131; 255] ltac:(apply bytes_okb_ok; reflexivity)). Qed.

(** []interface{}{[]byte{0, 16, 131, 255}, [3]byte{34, 255, 65}} *)
Definition by_t : typ := TSlice (TIface None).
Definition u8 : typ := TInt KUint8.
Definition by_v : val := VSlice [VIface (TSlice u8) (VSlice (map VInt [0; 16; 131; 255])); VIface (TArray 3 u8) (VArr (map VInt [34; 255; 65]))].
Notation by_m := (mem_of mapH by_t by_v).
Notation by_w := (word_of mapH by_t by_v).
Lemma by_call opts : call_opts opts = Some (config opts) -> callb mapH 10 by_t by_v (config opts) = true -> call mapH by_m by_t by_w by_v opts (config opts).
Proof. apply (plain_call [] 10). Qed.
Lemma by_call0 : call mapH by_m by_t by_w by_v [] (config []).
Proof. apply by_call; vm_compute; reflexivity. Qed.
Definition by_opts : list (option option_) := [Some ORawByteSlice; Some OByteArrayAsString].
Lemma by_call1 : call mapH by_m by_t by_w by_v by_opts (config by_opts).
Proof. apply by_call; vm_compute; reflexivity. Qed.
Definition by_out0 : bytes := lit "[""ABCD/w=="",[34,255,65]]".
Definition by_out1 : bytes := Eval vm_compute in (lit "[""" ++ [92] ++ lit "u0000" ++ [92] ++ lit "u0010" ++ [92] ++ lit "ufffd" ++ [92] ++ lit "ufffd" ++ lit """,""" ++ [92; 34; 92] ++ lit "ufffdA" ++ lit """]").
Lemma by_run0 : marshal_returns mapH by_m (Some (by_t, by_w)) [] (MOk by_out0).
Proof. exists 12%nat; split; [vm_compute; reflexivity | discriminate]. Qed.
Lemma by_run1 : marshal_returns mapH by_m (Some (by_t, by_w)) by_opts (MOk by_out1).
Proof. exists 12%nat; split; [vm_compute; reflexivity | discriminate]. Qed.
Lemma u8_byte : byte_type mapH u8.
Proof. repeat split; reflexivity. Qed.
Example C15_value_example : exists b txt, map VInt [0; 16; 131; 255] = map VInt b /\ infix txt by_out0 /\ base64_string b txt.
Proof.
  destruct (C15_value mapH plainV map_ok (constH_sort _ _ _) _ _ _ _ _ _ _ by_call0 by_run0 (TSlice u8) false false (map VInt [0; 16; 131; 255]) u8) as (b & txt & A1 & _ & A2 & A3).
  - apply (walk_ok mapH (config []) 10 [0; 0]%nat). vm_compute. reflexivity.
  - split; reflexivity.
  - reflexivity.
  - exact u8_byte.
  - intros [].
  - eauto.
Qed.
Example C46_slice_example : exists b txt, map VInt [0; 16; 131; 255] = map VInt b /\ infix txt by_out1 /\ string_of by_opts b txt.
Proof.
  destruct (C46_slice mapH plainV map_ok (constH_sort _ _ _) _ _ _ _ _ _ _ by_call1 by_run1 (TSlice u8) false false (map VInt [0; 16; 131; 255]) u8) as (b & txt & A1 & _ & A2 & A3).
  - apply (walk_ok mapH (config by_opts) 10 [0; 0]%nat). vm_compute. reflexivity.
  - split; reflexivity.
  - reflexivity.
  - exact u8_byte.
  - left. reflexivity.
  - eauto.
Qed.
Example C46_array_example : exists b txt, map VInt [34; 255; 65] = map VInt b /\ infix txt by_out1 /\ string_of by_opts b txt.
Proof.
  destruct (C46_array_string mapH plainV map_ok (constH_sort _ _ _) _ _ _ _ _ _ _ by_call1 by_run1 (TArray 3 u8) false false (map VInt [34; 255; 65]) 3%nat u8) as (b & txt & A1 & _ & _ & A2 & A3).
  - apply (walk_ok mapH (config by_opts) 10 [1; 0]%nat). vm_compute. reflexivity.
  - split; reflexivity.
  - reflexivity.
  - exact u8_byte.
  - right. left. reflexivity.
  - eauto.
Qed.
Example C46_numbers_example : exists b ns txt, map VInt [34; 255; 65] = map VInt b /\ Forall2 int_lit ns b /\ infix txt by_out0 /\ cjson (JArr (map JNum ns)) txt.
Proof.
  destruct (C46_array_numbers mapH plainV map_ok (constH_sort _ _ _) _ _ _ _ _ _ _ by_call0 by_run0 (TArray 3 u8) false false (map VInt [34; 255; 65]) 3%nat u8) as (b & ns & txt & A1 & _ & A2 & _ & A3 & A4).
  - apply (walk_ok mapH (config []) 10 [1; 0]%nat). vm_compute. reflexivity.
  - split; reflexivity.
  - reflexivity.
  - exact u8_byte.
  - split; reflexivity.
  - intros [].
  - exists b, ns, txt. auto.
Qed.
