(** encode.go and json.go: running an instruction on memory.

    [exec] follows the closures; fuel bounds the depth of nested calls and
    [OutOfFuel] is a run that needs more.  [Crash] is a panic or a wild memory
    access.  Buffers are byte strings here; slice capacities and pooled arrays
    are in ConcModel.v. *)
From Verif Require Import Base IntModel JsonSpec OptionsModel EscapeModel TypesModel TagsModel TimeModel FloatModel LeafModel
  Base64Model MemModel FieldsModel InstrModel.

(** Sequencing: continue on the buffer unless there was an error. *)
Definition bind (r : res) (k : bytes -> res) : res :=
  match r with
  | Ret d None => k d
  | Ret d (Some e) => Ret d (Some e)
  | Crash => Crash
  | OutOfFuel => OutOfFuel
  end.
Notation "'let!' x ':=' r 'in' k" := (bind r (fun x => k)) (at level 200, x name, r at level 100, k at level 200).

(** A read that faults is a crash. *)
Definition onSome {A} (r : option A) (k : A -> res) : res := match r with Some x => k x | None => Crash end.

(** encode.go:283-305: encodeByteSlice on the slice read. *)
Definition encode_byte_slice (v : option bytes) (dst : bytes) (o : encOpts) : bytes :=
  match v with
  | None => dst ++ l_null
  | Some b =>
    if has (o_flags o) rawByteSlice then appendEscapedBytes (dst ++ [34]) b o ++ [34]
    else dst ++ [34] ++ base64 b ++ [34]
  end.

(** encode.go:252: len(dst) > 4 && bytes.Compare(dst[len(dst)-4:], "null") == 0 *)
Definition ends_null (dst : bytes) : bool :=
  (4 <? length dst)%nat && bytes_eqb (skipn (length dst - 4) dst) l_null.

Definition is_zero (f : fval) : bool := match f with FZero _ => true | _ => false end.

Section Exec.
  Variable H : host.
  Let E := h_env H.
  Variable o : encOpts.
  Variable m : mem.

  (** types.go:101-185: emptyFuncOf; [None] is a wild read.  reflect.maplen of
      a nil map is 0. *)
  Definition is_empty (t : typ) (l : loc) : option bool :=
    match under E t with
    | TBool => match rd m l with Some (CBool b) => Some (negb b) | _ => None end
    | TString => match rd_int m (ladd l 8) KInt with Some n => Some (n =? 0) | None => None end
    | TInt k => match rd_int m l k with Some n => Some (n =? 0) | None => None end
    | TFloat b =>
      match rd m l with
      | Some (CFloat b' f) => if Bool.eqb b b' then Some (is_zero f) else None
      | _ => None
      end
    | TMap _ _ =>
      match rd_word m l with
      | Some WNil => Some true
      | Some (WPtr a) => match m a with Some (CMap es) => Some (length es =? 0)%nat | _ => None end
      | _ => None
      end
    | TPtr _ | TIface _ =>
      match rd_word m l with Some WNil => Some true | Some _ => Some false | None => None end
    | TSlice _ => match rd_int m (ladd l 8) KInt with Some n => Some (n =? 0) | None => None end
    | TArray n _ => Some (n =? 0)%nat
    | _ => Some false
    end.

  (** encode.go:212-223: follow the offset sequence; [Some None]: a nil pointer
      on the way. *)
  Fixpoint follow (sq : list seqelt) (l : loc) : option (option loc) :=
    match sq with
    | [] => Some (Some l)
    | (off, indir) :: sq' =>
      let l := ladd l off in
      if indir then
        match rd_word m l with
        | Some WNil => Some None
        | Some (WPtr a) => follow sq' (LMem a)
        | _ => None
        end
      else follow sq' l
    end.

  (** encode.go:226: *( *unsafe.Pointer)(fp) == nil *)
  Definition is_nil (l : loc) : option bool :=
    match rd_word m l with Some WNil => Some true | Some _ => Some false | None => None end.

  Section Loops.
    (** Running an instruction, with less fuel. *)
    Variable ex : instr -> loc -> bytes -> res.

    (** encode.go:201-259: the loop of encodeStruct.  [first] is nxt == '{'. *)
    Fixpoint exec_fields (fs : list sfield) (p : loc) (first : bool) (dst : bytes) : res :=
      match fs with
      | [] => Ret (if first then dst ++ [123; 125] else dst ++ [125]) None
      | f :: fs' =>
        if isDeniedField o (sf_name f) then exec_fields fs' p first dst
        else onSome (follow (sf_seq f) p) (fun r =>
          match r with
          | None => exec_fields fs' p first dst
          | Some fp =>
            onSome (if sf_omitNil f then is_nil fp else Some false) (fun nil =>
            if nil then exec_fields fs' p first dst
            else onSome (match sf_empty f with Some t => is_empty t fp | None => Some false end) (fun emp =>
            if emp then exec_fields fs' p first dst
            else
              let key := if has (o_flags o) noHTMLEscaping then key_raw (sf_name f) else key_esc (sf_name f) in
              let last := if first then S (length dst) else length dst in
              let! dst := ex (sf_instr f) fp (dst ++ [if first then 123 else 44] ++ key) in
              exec_fields fs' p false (if sf_omitNull f && ends_null dst then firstn last dst else dst)))
          end)
      end.

    (** encode.go:316-327: the loop of encodeArray: [n] elements left, the next
        one is number [i]. *)
    Fixpoint exec_elems (ins : instr) (es : Z) (p : loc) (n : nat) (i : Z) (dst : bytes) : res :=
      match n with
      | O => Ret (if i =? 0 then dst ++ [91; 93] else dst ++ [93]) None
      | S n' =>
        let! dst := ex ins (ladd p (i * es)) (dst ++ [if i =? 0 then 91 else 44]) in
        exec_elems ins es p n' (i + 1) dst
      end.

    (** encode.go:307-347: encodeArray and encodeByteArrayAsString. *)
    Definition exec_array (ins : instr) (es : Z) (n : nat) (isba : bool) (p : loc) (dst : bytes) : res :=
      if isba && has (o_flags o) byteArrayAsString then
        match p with
        | LMem a => onSome (rd_bytes m a n) (fun b => Ret (appendEscapedBytes (dst ++ [34]) b o ++ [34]) None)
        | LTmp _ _ => match n with O => Ret (dst ++ [34; 34]) None | _ => Crash end
        end
      else exec_elems ins es p n 0 dst.

    (** Entries of a map or sync.Map: what to run for the key and the value. *)
    Definition entry : Type := (bytes -> res) * (bytes -> res).

    (** encode.go:392-408 and 511-528: the loops of encodeUnsortedMap and
        encodeUnsortedSyncMap. *)
    Fixpoint exec_unsorted (es : list entry) (first : bool) (dst : bytes) : res :=
      match es with
      | [] => Ret dst None
      | (ke, ve) :: es' =>
        let! dst := ke (if first then dst else dst ++ [44]) in
        let! dst := ve (dst ++ [58]) in
        exec_unsorted es' false dst
      end.

    (** encode.go:428-451 and 545-570: fill the pooled buffer [buf] and the
        list of key/value pairs.  The slice expression buf.B[off+1:len-1]
        panics when the key is shorter than two bytes. *)
    Inductive fill_res := FOk (kvs : list (bytes * bytes)) | FErr (e : gerr) | FCrash | FFuel.
    Fixpoint fill (es : list entry) (buf : bytes) (kvs : list (bytes * bytes)) : fill_res :=
      match es with
      | [] => FOk kvs
      | (ke, ve) :: es' =>
        let off := length buf in
        match ke buf with
        | Ret buf1 None =>
          if (length buf1 <? off + 2)%nat then FCrash
          else
            let key := firstn (length buf1 - 2 - off) (skipn (off + 1) buf1) in
            match ve (buf1 ++ [58]) with
            | Ret buf2 None => fill es' buf2 (kvs ++ [(key, skipn off buf2)])
            | Ret _ (Some e) => FErr e
            | Crash => FCrash
            | OutOfFuel => FFuel
            end
        | Ret _ (Some e) => FErr e
        | Crash => FCrash
        | OutOfFuel => FFuel
        end
      end.

    (** encode.go:459-464 and 578-583. *)
    Fixpoint join_kvs (kvs : list (bytes * bytes)) (first : bool) (dst : bytes) : bytes :=
      match kvs with
      | [] => dst
      | (_, kv) :: kvs' => join_kvs kvs' false ((if first then dst else dst ++ [44]) ++ kv)
      end.

    (** encode.go:414-474 and 533-589: encodeSortedMap, encodeSortedSyncMap. *)
    Definition exec_sorted (es : list entry) (dst : bytes) : res :=
      match fill es [] [] with
      | FOk kvs => Ret (join_kvs (h_sort H kvs) true dst) None
      | FErr e => Ret dst (Some e)
      | FCrash => Crash
      | FFuel => OutOfFuel
      end.

    (** encode.go:368-379 and 492-501. *)
    Definition exec_entries (es : list entry) (dst : bytes) : res :=
      let! dst := (if has (o_flags o) unsortedMap then exec_unsorted es true dst else exec_sorted es dst) in
      Ret (dst ++ [125]) None.
  End Loops.

  (** encode.go:679-729: call the method on the interface value (td, word) and
      append its result; [t] is the type reported in errors. *)
  Definition call_method (k : mkind) (t td : typ) (w : loc) (dst : bytes) : res :=
    match k with
    | MCtx | MApp =>
      onSome (h_call H k td w m (match k with MCtx => o_ctx o | _ => None end) dst) (fun r =>
        match r with
        | inl dst2 => Ret dst2 None
        | inr e => Ret dst (Some (EMarshaler t k (IUser e)))
        end)
    | MJson => onSome (h_call H k td w m None []) (fun r => encode_json_result t r dst o)
    | MText => onSome (h_call H k td w m None []) (fun r => encode_text_result t r dst o)
    end.

  (** encode.go:631-677: encodeMarshaler, with packEface (unsafe.go:41-56).  A
      pointer [LTmp] is never nil. *)
  Definition exec_marshaler (k : mkind) (t : typ) (hasPtr : bool) (p : loc) (dst : bytes) : res :=
    if hasPtr then
      match p with
      | LMem 0 => Ret (dst ++ l_null) None
      | _ => call_method k (TPtr t) (TPtr t) p dst
      end
    else
      match under E t with
      | TPtr _ =>
        match rd_word m p with
        | Some WNil => Ret (dst ++ l_null) None
        | Some (WPtr a) => call_method k t t (LMem a) dst
        | _ => Crash
        end
      | TIface ms =>
        match (match ms with None => rd_eface m p | Some _ => rd_iface m p end) with
        | Some None => Ret (dst ++ l_null) None
        | Some (Some (td, w)) => call_method k t td (LMem w) dst
        | None => Crash
        end
      | _ => call_method k t t p dst
      end.

  Definition kvlocs (ex : instr -> loc -> bytes -> res) (ki vi : instr) (es : list (Z * Z)) : list entry :=
    map (fun kv => (ex ki (LMem (fst kv)), ex vi (LMem (snd kv)))) es.

  (** encode.go:591-629: appendSyncMapKey; [any] is appendJSON. *)
  Definition sync_key (any : typ -> Z -> bytes -> res) (k : eface) (dst : bytes) : res :=
    match k with
    | None => Ret dst (Some ENilKey)
    | Some (kt, w) =>
      let isStr := isString E kt in
      let isInt := isInteger E kt in
      let isTxt := h_impl H kt MText in
      if negb isStr && negb isInt && negb isTxt then Ret dst (Some (EKeyType kt))
      else
        let quoted := negb isStr && negb isTxt in
        let! dst := (if isStr then onSome (rd_string m (LMem w)) (fun s => Ret (encode_string dst s o) None)
                     else any kt w (if quoted then dst ++ [34] else dst)) in
        Ret (if quoted then dst ++ [34] else dst) None
    end.

  (** appendJSON of a value of a sync.Map (json.go:185-192): a nil interface
      has no type, cachedInstr(nil) panics. *)
  Definition sync_val (any : typ -> Z -> bytes -> res) (v : eface) (dst : bytes) : res :=
    match v with
    | None => Crash
    | Some (vt, w) => any vt w dst
    end.

  (** The instructions, by constructor: encodeBool and encodeString
      (encode.go:24-51), encodeFloat32/64 (55-63), encodeInterface (65-74),
      encodeNumber ... encodeDuration (76-153), encodePointer (185-190),
      encodeStruct (192-260), encodeSlice (262-276), encodeByteSlice
      (283-305), encodeArray (307-347), encodeMap (349-380), encodeSyncMap
      (481-502), encodeMarshaler (631-677), wrapInlineInstr,
      wrapQuotedInstr and wrapTextMarshalerNilCheck (instruction.go:407-432).
      encodeInterface reads every interface as an interface{}. *)
  Fixpoint exec (fuel : nat) (i : instr) (p : loc) (dst : bytes) : res :=
    match fuel with
    | O => OutOfFuel
    | S f =>
      let any (t : typ) (w : Z) (dst : bytes) : res :=
        match cached_instr H f t with
        | Some i => exec f i (LMem w) dst
        | None => OutOfFuel
        end in
      match i with
      | IBool => match rd m p with Some (CBool b) => Ret (encode_bool b dst) None | _ => Crash end
      | IString => onSome (rd_string m p) (fun s => Ret (encode_string dst s o) None)
      | IQString => onSome (rd_string m p) (fun s => Ret (encode_quoted_string dst s o) None)
      | IInt k => onSome (rd_int m p k) (fun n => Ret (encode_int k n dst) None)
      | IFloat b =>
        match rd m p with
        | Some (CFloat b' x) => if Bool.eqb b b' then appendFloat (h_shortest H) dst x b else Crash
        | _ => Crash
        end
      | IIface =>
        onSome (rd_eface m p) (fun v =>
          match v with
          | None => Ret (dst ++ l_null) None
          | Some (t, w) => any t w dst
          end)
      | INumber => onSome (rd_string m p) (fun s => encode_number s dst o)
      | IRaw => onSome (rd_byte_slice m p) (fun v => encode_raw_message v dst o)
      | ITime => match rd m p with Some (CTime t) => encode_time (h_fmt H) t dst o | _ => Crash end
      | IDuration => onSome (rd_int m p KInt64) (fun d => encode_duration (h_shortest H) (h_tofloat H) d dst o)
      | ISyncMap =>
        match rd m p with
        | Some (CSync es) =>
          exec_entries (map (fun kv => (sync_key any (fst kv), sync_val any (snd kv))) es) (dst ++ [123])
        | _ => Crash
        end
      | IUnsupp t => Ret dst (Some (EUnsupportedType t))
      | IPtr i =>
        match rd_word m p with
        | Some WNil => Ret (dst ++ l_null) None
        | Some (WPtr a) => exec f i (LMem a) dst
        | _ => Crash
        end
      | IMarshaler k t hp => exec_marshaler k t hp p dst
      | IStruct t ca =>
        match struct_body H f t ca with
        | Some fs => exec_fields (exec f) fs p true dst
        | None => OutOfFuel
        end
      | IArray i es n isba => exec_array (exec f) i es n isba p dst
      | ISlice i es =>
        onSome (rd_header m p) (fun '(a, n) =>
          if a =? 0 then Ret (dst ++ if has (o_flags o) nilSliceEmpty then [91; 93] else l_null) None
          else if n =? 0 then Ret (dst ++ [91; 93]) None
          else exec_array (exec f) i es (Z.to_nat n) false (LMem a) dst)
      | IByteSlice => onSome (rd_byte_slice m p) (fun v => Ret (encode_byte_slice v dst o) None)
      | IMap ki vi =>
        match rd_word m p with
        | Some WNil => Ret (dst ++ if has (o_flags o) nilMapEmpty then [123; 125] else l_null) None
        | Some (WPtr a) =>
          match m a with
          | Some (CMap es) =>
            if (length es =? 0)%nat then Ret (dst ++ [123; 125]) None
            else exec_entries (kvlocs (exec f) ki vi es) (dst ++ [123])
          | _ => Crash
          end
        | _ => Crash
        end
      | IInline i => match p with LMem w => exec f i (LTmp w 0) dst | LTmp _ _ => Crash end
      | IQuoted i => let! dst := exec f i p (dst ++ [34]) in Ret (dst ++ [34]) None
      | INilText i =>
        onSome (is_nil p) (fun nil => if nil then Ret (dst ++ [34; 34]) None else exec f i p dst)
      end
    end.

  (** json.go:185-192: appendJSON on a non-nil value. *)
  Definition append_json (fuel : nat) (v : typ * Z) (dst : bytes) : res :=
    match cached_instr H fuel (fst v) with
    | Some i => exec fuel i (LMem (snd v)) dst
    | None => OutOfFuel
    end.
End Exec.

(** What a call to Marshal or MarshalOpts returns. *)
Inductive mres := MOk (b : bytes) | MErr (e : gerr) | MCrash | MFuel.

(** json.go:162-183: marshalJSON; the pooled buffer has been reset. *)
Definition marshal_json (H : host) (fuel : nat) (m : mem) (v : typ * Z) (o : encOpts) : mres :=
  match append_json H o m fuel v [] with
  | Ret b None => MOk b
  | Ret _ (Some e) => MErr e
  | Crash => MCrash
  | OutOfFuel => MFuel
  end.

(** json.go:111-116 *)
Definition Marshal (H : host) (fuel : nat) (m : mem) (v : eface) : mres :=
  match v with
  | None => MOk l_null
  | Some v => marshal_json H fuel m v default_opts
  end.

(** json.go:121-126 *)
Definition Append (H : host) (fuel : nat) (m : mem) (dst : bytes) (v : eface) : res :=
  match v with
  | None => Ret (dst ++ l_null) None
  | Some v => append_json H default_opts m fuel v dst
  end.

(** json.go:134-141 and 151-158: the options of a call, or the error of
    validate. *)
Definition check_opts (opts : list (option option_)) : encOpts + oerr :=
  match opts with
  | [] => inl default_opts
  | _ => let eo := apply default_opts opts in match validate eo with None => inl eo | Some e => inr e end
  end.
Definition call_opts (opts : list (option option_)) : option encOpts :=
  match check_opts opts with inl o => Some o | inr _ => None end.

(** json.go:130-143 *)
Definition MarshalOpts (H : host) (fuel : nat) (m : mem) (v : eface) (opts : list (option option_)) : mres :=
  match v with
  | None => MOk l_null
  | Some v =>
    match check_opts opts with
    | inl o => marshal_json H fuel m v o
    | inr e => MErr (EInvalidOption e)
    end
  end.

(** json.go:147-160.  On an invalid option the code returns a nil slice, not
    dst. *)
Definition AppendOpts (H : host) (fuel : nat) (m : mem) (dst : bytes) (v : eface) (opts : list (option option_)) : res :=
  match v with
  | None => Ret (dst ++ l_null) None
  | Some v =>
    match check_opts opts with
    | inl o => append_json H o m fuel v dst
    | inr e => Ret [] (Some (EInvalidOption e))
    end
  end.
