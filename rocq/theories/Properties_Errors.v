(** Property C51: the texts of errors and of duration formats. *)
From Verif Require Import Base Utf8 JsonSpec NumberModel NumberProof OptionsModel EscapeModel EscapeProof JsonParse StrictParse CompactModel CompactProof IntModel IntProof TypesModel TypesFacts ErrorModel TagsModel CalendarSpec TimeModel TimeProof
  FloatModel FloatProof FloatSpec FloatShort DurationFloat ExampleVals LeafModel LeafProof MemModel FieldsModel FieldsProof InstrModel ExecModel ValueModel ExecMono ExecProof HostFacts VencFacts MarshalThm DocSpec EntriesFacts DocLeaf PartFacts DocProof SafeProof ApiFacts
  PartsThm ShapeThm CallFacts MethodsThm ExampleHost ExampleConst ExampleRead Properties_Options Properties_Strings Properties_Numbers Properties_Time Properties_Floats Properties_Fields Properties_Members Properties_Maps Properties_Api Properties_Marshalers.

(** The name of a format is "unknown" exactly when the option made of it is
    rejected, and two accepted formats have different names. *)
Theorem C51_formats : (forall f, fmt_string f = lit "unknown" <-> unacceptable [Some (ODurationFormat f)]) /\
  forall f f', ~ unacceptable [Some (ODurationFormat f)] -> ~ unacceptable [Some (ODurationFormat f')] -> fmt_string f = fmt_string f' -> f = f'.
Proof.
  assert (U : forall f, unacceptable [Some (ODurationFormat f)] <-> f < 0 \/ 5 < f).
  { intros f. rewrite unacceptable_none. unfold call_opts, check_opts. cbn -[dur_valid Z.lt]. unfold dur_valid, DurationString, DurationNanoseconds.
    destruct ((0 <=? f) && (f <=? 5)) eqn:E; cbn [negb]; split; intros X; try discriminate; try reflexivity; lia. }
  assert (C : forall f, ~ unacceptable [Some (ODurationFormat f)] -> f = 0 \/ f = 1 \/ f = 2 \/ f = 3 \/ f = 4 \/ f = 5) by (intros f; rewrite U; lia).
  split.
  - intros f. split.
    + intros E. destruct (Z_lt_le_dec f 0) as [L|L]; [apply U; lia|]. destruct (Z_lt_le_dec 5 f) as [L'|L']; [apply U; lia|].
      assert (X : f = 0 \/ f = 1 \/ f = 2 \/ f = 3 \/ f = 4 \/ f = 5) by lia. destruct X as [-> |[-> |[-> |[-> |[-> | ->]]]]]; vm_compute in E; discriminate.
    + rewrite U. intros X. unfold fmt_string, dur_valid, DurationString, DurationNanoseconds. replace ((0 <=? f) && (f <=? 5)) with false by lia. reflexivity.
  - intros f f' Hf Hf' E. apply C in Hf, Hf'.
    destruct Hf as [-> |[-> |[-> |[-> |[-> | ->]]]]], Hf' as [-> |[-> |[-> |[-> |[-> | ->]]]]]; try reflexivity; vm_compute in E; discriminate.
Qed.

(** The names are those of the units: under a format whose name is that of the
    unit u, a duration of n times u is written as the integer n. *)
Inductive unit_name : bytes -> Z -> Prop :=
| un_min : unit_name (lit "min") 60000000000
| un_s : unit_name (lit "s") 1000000000
| un_ms : unit_name (lit "ms") 1000000
| un_us : unit_name [206; 188; 115] 1000 (* μs, in UTF-8 *)
| un_ns : unit_name (lit "nanosecond") 1.
Theorem C51_unit H vcall m w n u opts o : host_ok H vcall -> shortest_exact (h_shortest H) -> h_tofloat H = dur_float ->
  holds H m TDuration w (VInt (n * u)) -> call_opts opts = Some o -> unit_name (fmt_string (o_durationFmt o)) u ->
  exists out, marshal_returns H m (Some (TDuration, w)) opts (MOk out) /\ int_lit out n.
Proof.
  intros OK Sh Tf Hh Ho Hu. assert (V := proj2 (proj2 (call_opts_valid opts o Ho))). unfold dur_valid, DurationString, DurationNanoseconds in V.
  assert (X : (o_durationFmt o = 1 /\ u = 60000000000) \/ (o_durationFmt o = 2 /\ u = 1000000000) \/ whole_unit (o_durationFmt o) u).
  { assert (Q : o_durationFmt o = 0 \/ o_durationFmt o = 1 \/ o_durationFmt o = 2 \/ o_durationFmt o = 3 \/ o_durationFmt o = 4 \/ o_durationFmt o = 5) by lia.
    destruct Q as [Q|[Q|[Q|[Q|[Q|Q]]]]]; rewrite Q in *; inversion Hu as [E|E|E|E|E]; try discriminate; auto; right; right; constructor. }
  clear - OK Sh Tf Hh Ho X. destruct X as [[X ->]|[[X ->]|X]].
  - destruct (C49_whole H vcall m w _ true opts o OK Sh Tf Hh Ho X) as (out & R & I); [apply Z_mod_mult|]. exists out. split; [exact R|]. cbn [nanos] in I. rewrite Z.div_mul in I by discriminate. exact I.
  - destruct (C49_whole H vcall m w _ false opts o OK Sh Tf Hh Ho X) as (out & R & I); [apply Z_mod_mult|]. exists out. split; [exact R|]. cbn [nanos] in I. rewrite Z.div_mul in I by discriminate. exact I.
  - destruct (C13_duration_integer H vcall m w _ u opts o OK Hh Ho X) as (out & q & R & I & T1 & T2). exists out. split; [exact R|]. replace n with q; [exact I|].
    assert (P : 0 <= n * q) by (inversion X; subst u; lia). assert (A : Z.abs q = Z.abs n) by (inversion X; subst u; clear - T1; lia). clear - P A. destruct (Z.eq_dec n 0); nia.
Qed.

(** The text for a rejected option list, whatever the value. *)
Theorem C51_options X H m v opts e : marshal_returns H m (Some v) opts (MErr e) -> unacceptable opts ->
  (last_set OWithContext opts None -> error_text X e = lit "json: invalid option: nil context") /\
  (~ last_set OWithContext opts None -> last_set OTimeLayout opts [] -> error_text X e = lit "json: invalid option: empty time layout") /\
  (~ last_set OWithContext opts None -> ~ last_set OTimeLayout opts [] -> error_text X e = lit "json: invalid option: unknown duration format").
Proof.
  intros R U. assert (Q : forall e', rejection opts e' -> e = EInvalidOption e').
  { intros e' He. destruct (C16_rejected H m v opts) as [_ Y]. apply (proj1 (Y e' He)) in R. congruence. }
  split; [|split]; intros; [rewrite (Q NilContext) | rewrite (Q EmptyLayout) | rewrite (Q UnknownFormat)]; try reflexivity; cbn [rejection]; auto.
  destruct U as [U|[U|U]]; tauto.
Qed.

(** The texts of all other errors.  [starts p s]: s starts with p. *)
Definition starts (p s : bytes) : Prop := exists r, s = p ++ r.
(** Apart from two families every error text starts with "json: ": a time out
    of range and a bad key of a sync.Map, and then the value holds one. *)
Theorem C51_prefix X H vcall m t w v opts o e : host_ok H vcall -> call H m t w v opts o -> marshal_returns H m (Some (t, w)) opts (MErr e) ->
  starts (lit "json: ") (error_text X e) \/
  (exists ca q g y, part H o (t, is_ptr H t, false, v) (TTime, ca, q, VTime g) /\ local_year g y /\ ~ 0 <= y <= 9999 /\ error_text X e = lit "time: year outside of range [0,9999]") \/
  (exists ca q es k x, part H o (t, is_ptr H t, false, v) (TSyncMap, ca, q, VSync es) /\ In (k, x) es /\ bad_key H k /\
     error_text X e = match k with VIface kt _ => lit "unsupported key of type " ++ tx_type X kt ++ lit " in sync.Map" | _ => lit "unsupported nil key in sync.Map" end).
Proof.
  intros OK C R. destruct (call_returns H vcall OK m t w v opts o C) as (out & err & A & B). apply B in R. destruct err as [e1|]; [|discriminate]. injection R as <-.
  apply encodes_inv in A. destruct A as [n Hn]. destruct (error_raised H vcall o OK n _ _ _ _ _ _ Hn) as (y & Hp & Hr).
  inversion Hr; subst; try (left; eexists; reflexivity).
  - right; left. do 4 eexists. split; [exact Hp|]. split; [eassumption|]. split; [lia | reflexivity].
  - right; right. do 5 eexists. split; [exact Hp|]. split; [eassumption|]. split; [|reflexivity]. left. reflexivity.
  - right; right. do 5 eexists. split; [exact Hp|]. split; [eassumption|]. split; [|reflexivity]. right. eauto 8.
Qed.

(** An error that wraps a user's error: a method of a part of the value returned
    that error, and the text names the method, the type and the error. *)
Theorem C51_wrapped X H vcall m t w v opts o e u : host_ok H vcall -> call H m t w v opts o -> marshal_returns H m (Some (t, w)) opts (MErr e) -> unwrap e = Some (IUser u) ->
  exists t' ca q v' k td x, part H o (t, is_ptr H t, false, v) (t', ca, q, v') /\ native t' = false /\ first_method H t' ca k /\
    receiver H t' (by_address H t' k) v' td x /\ vcall k td x (ctx_of o k) = inr u /\
    error_text X e = lit "json: error calling " ++ match k with MJson => lit "MarshalJSON" | MText => lit "MarshalText" | MCtx => lit "AppendJSONContext" | MApp => lit "AppendJSON" end ++
      lit " for type " ++ tx_type X (if by_address H t' k then TPtr t' else t') ++ lit ": " ++ tx_user X u.
Proof.
  intros OK C R E. destruct e as [| | | |T k i| | |]; cbn [unwrap] in E; try discriminate. injection E as ->.
  destruct (C37_error_origin H vcall m t w v opts o T k u OK C R) as (t' & ca & q & v' & td & x & P & N & F & -> & Rc & Hc).
  exists t', ca, q, v', k, td, x. repeat (split; [assumption|]). reflexivity.
Qed.
Print Assumptions C51_formats.
Print Assumptions C51_unit.
Print Assumptions C51_options.
Print Assumptions C51_prefix.
Print Assumptions C51_wrapped.

(** ** Examples *)
Definition exX : texts := mkTexts (fun t => match t with TNamed 6 => lit "pkg.F" | _ => lit "?" end) (fun _ => lit "boom") (fun s => 34 :: s ++ [34]).
Example C51_ex_formats : fmt_string 1 = lit "min" /\ fmt_string 6 = lit "unknown" /\ fmt_string 4 = [206; 188; 115].
Proof. repeat split. Qed.
Example C51_ex_unknown : unacceptable [Some (ODurationFormat 6)] /\ ~ unacceptable [Some (ODurationFormat 4)].
Proof. split; [apply C51_formats; reflexivity | rewrite <- (proj1 C51_formats); discriminate]. Qed.
(** -120 minutes *)
Example C51_ex_unit : exists out, marshal_returns flH (cell_mem (CInt KInt64 (- 7200000000000))) (Some (TDuration, 100)) [Some (ODurationFormat 1)] (MOk out) /\ int_lit out (- 120).
Proof.
  apply (C51_unit flH fl_vcall _ 100 (- 120) 60000000000 [Some (ODurationFormat 1)] (apply default_opts [Some (ODurationFormat 1)]) fl_ok shortest_dec_exact); [reflexivity | apply fl_dur; cbn; lia | reflexivity | constructor].
Qed.
Example C51_ex_options : forall e, marshal_returns listH (fun _ => None) (Some (TNamed 0, 0)) [Some (ODurationFormat 9); None; Some (OTimeLayout [])] (MErr e) ->
  error_text exX e = lit "json: invalid option: empty time layout".
Proof.
  intros e R. assert (J : rejection [Some (ODurationFormat 9); None; Some (OTimeLayout [])] EmptyLayout) by (apply validate_rejection; reflexivity).
  assert (U : unacceptable [Some (ODurationFormat 9); None; Some (OTimeLayout [])]) by (apply unacceptable_rejection; eauto).
  destruct (C51_options exX _ _ _ _ _ R U) as (_ & Q & _). destruct J as [J1 J2]. auto.
Qed.
(** []F{1}, the method of F failing *)
Example C51_ex_wrapped : exists e, marshal_returns mtH (mt_m f_t f_v) (Some (f_t, mt_w f_t f_v)) [] (MErr e) /\ unwrap e = Some (IUser 5) /\
  error_text exX e = lit "json: error calling AppendJSON for type pkg.F: boom".
Proof. eexists. split; [exact f_out|]. split; reflexivity. Qed.
(** and the part of the value it comes from *)
Example C51_ex_origin : exists t' ca q v' k td x, part mtH default_opts (f_t, is_ptr mtH f_t, false, f_v) (t', ca, q, v') /\ first_method mtH t' ca k /\
  receiver mtH t' (by_address mtH t' k) v' td x /\ mtV k td x (ctx_of default_opts k) = inr 5.
Proof.
  destruct (C51_wrapped exX mtH mtV _ _ _ _ _ _ _ 5 mt_ok f_call f_out eq_refl) as (t' & ca & q & v' & k & td & x & A & _ & B & C & D & _). exists t', ca, q, v', k, td, x. auto.
Qed.
Example C51_ex_prefix : exists e, marshal_returns mtH (mt_m f_t f_v) (Some (f_t, mt_w f_t f_v)) [] (MErr e) /\ starts (lit "json: ") (error_text exX e).
Proof.
  eexists. split; [exact f_out|]. destruct (C51_prefix exX mtH mtV _ _ _ _ _ _ _ mt_ok f_call f_out) as [S|[(ca & q & g & y & _ & _ & _ & C)|(ca & q & es & k & x & _ & _ & _ & C)]]; [exact S | | destruct k]; vm_compute in C; discriminate.
Qed.
