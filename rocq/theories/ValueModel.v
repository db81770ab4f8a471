(** Go values as trees, what it means for memory to hold a value, and the
    encoding of a value defined on the tree.

    [venc] is a reference: it never mentions memory, addresses, offsets,
    instructions or caches.  ExecProof.v shows that running the instructions on
    memory that holds a value gives exactly what [venc] says.  [VOut] marks the
    values outside that statement, where the code misreads memory or panics:
    - an interface with methods, none of them an encoding method, that is not
      nil (encodeInterface reads an itab as a type);
    - a value-receiver encoding method on a type stored directly in interface
      words that is not a pointer (packEface gives the method the wrong word);
    - a dynamic type stored directly that isInlined does not recognise (an
      array of one pointer, or a struct of one such array);
    - a nil value in a sync.Map;
    - a key shorter than two bytes in a sorted map;
    - a promoted field whose embedSeq does not hold the offsets of its index
      path ([right_seq]; it does for every field up to four structs deep);
    - scalar encoders that panic.
    The _refuted theorems have concrete instances. *)
From Verif Require Import Base IntModel JsonSpec OptionsModel EscapeModel TypesModel TypesFacts TagsModel TimeModel FloatModel
  LeafModel Base64Model MemModel FieldsModel FieldsProof InstrModel ExecModel.

(** Values.  [VNil] is a nil pointer, map, slice or interface; the entries of a
    map are in iteration order; [VOpaque] is a value of complex, chan, func or
    unsafe.Pointer type. *)
Inductive val :=
| VBool (b : bool) | VInt (n : Z) | VFloat (f : fval) | VStr (s : bytes)
| VNil
| VPtr (v : val)
| VIface (t : typ) (v : val)
| VSlice (vs : list val)
| VArr (vs : list val)
| VMap (es : list (val * val))
| VStruct (vs : list val)
| VTime (t : gtime)
| VSync (es : list (val * val))
| VOpaque.

Section Value.
  Variable H : host.
  Let E := h_env H.
  Notation tok := (typ_ok (h_letter H) (h_udigit H)).

  (** Types whose values are stored directly in the data word of an interface
      (cmd/compile isdirectiface, reflect's ifaceIndir). *)
  Inductive direct : typ -> Prop :=
  | d_ptr t e : under E t = TPtr e -> direct t
  | d_map t k e : under E t = TMap k e -> direct t
  | d_chan t : under E t = TChan -> direct t
  | d_func t : under E t = TFunc -> direct t
  | d_unsafe t : under E t = TUnsafePointer -> direct t
  | d_struct t d u : under E t = TStruct [(d, u)] -> direct u -> direct t
  | d_array t u : under E t = TArray 1 u -> direct u -> direct t.

  Fixpoint is_direct (fuel : nat) (t : typ) : option bool :=
    match fuel with
    | O => None
    | S f =>
      match under E t with
      | TPtr _ | TMap _ _ | TChan | TFunc | TUnsafePointer => Some true
      | TStruct [(_, u)] => is_direct f u
      | TArray 1 u => is_direct f u
      | _ => Some false
      end
    end.

  Definition is_iface (t : typ) : bool := match under E t with TIface _ => true | _ => false end.
  Definition opaque (t : typ) : bool :=
    match under E t with TComplex | TChan | TFunc | TUnsafePointer => true | _ => false end.

  (** [repr m l t v]: memory m holds the value v of type t at l. *)
  Section Repr.
  Variable m : mem.

  Inductive repr : loc -> typ -> val -> Prop :=
  | R_bool l t b : under E t = TBool -> rd m l = Some (CBool b) -> repr l t (VBool b)
  | R_int l t k n : under E t = TInt k -> rd_int m l k = Some n -> int_range k n -> repr l t (VInt n)
  | R_float l t b f : under E t = TFloat b -> rd m l = Some (CFloat b f) -> repr l t (VFloat f)
  | R_str l t s : under E t = TString -> rd_string m l = Some s -> bytes_ok s -> repr l t (VStr s)
  | R_nil l t : under E t <> TString -> isNilable E t = true -> rd m l = Some (CPtr 0) ->
      ((exists e, under E t = TSlice e) -> rd_int m (ladd l 8) KInt = Some 0) -> repr l t VNil
  | R_ptr l t e a v : under E t = TPtr e -> rd m l = Some (CPtr a) -> 0 < a -> repr (LMem a) e v -> repr l t (VPtr v)
  | R_iface l t ms td w v : under E t = TIface ms ->
      rd m l = Some (match ms with None => CType td | Some _ => CTab td end) -> rd m (ladd l 8) = Some (CPtr w) ->
      tok td -> is_iface td = false ->
      (direct td -> repr (LTmp w 0) td v) -> (~ direct td -> repr (LMem w) td v) ->
      repr l t (VIface td v)
  | R_slice l t e a vs : under E t = TSlice e -> rd_header m l = Some (a, Z.of_nat (length vs)) -> 0 < a ->
      (forall i v, nth_error vs i = Some v -> repr (LMem (a + Z.of_nat i * h_size H e)) e v) -> repr l t (VSlice vs)
  | R_arr l t n e vs : under E t = TArray n e -> length vs = n ->
      (forall i v, nth_error vs i = Some v -> repr (ladd l (Z.of_nat i * h_size H e)) e v) -> repr l t (VArr vs)
  | R_map l t k e a addrs es : under E t = TMap k e -> rd m l = Some (CPtr a) -> 0 < a -> m a = Some (CMap addrs) ->
      length addrs = length es ->
      (forall i ka va kv vv, nth_error addrs i = Some (ka, va) -> nth_error es i = Some (kv, vv) ->
         repr (LMem ka) k kv /\ repr (LMem va) e vv) -> repr l t (VMap es)
  | R_struct l t fs vs : under E t = TStruct fs -> t <> TTime -> t <> TSyncMap -> length vs = length fs ->
      (forall i d u v, nth_error fs i = Some (d, u) -> nth_error vs i = Some v -> repr (ladd l (h_off H fs i)) u v) ->
      repr l t (VStruct vs)
  | R_time l g : rd m l = Some (CTime g) -> gtime_ok g -> repr l TTime (VTime g)
  | R_sync l efs es : rd m l = Some (CSync efs) -> length efs = length es ->
      (forall i ke ve kv vv, nth_error efs i = Some (ke, ve) -> nth_error es i = Some (kv, vv) ->
         repr_any ke kv /\ repr_any ve vv) -> repr l TSyncMap (VSync es)
  | R_opaque l t : opaque t = true -> repr l t VOpaque
  (** A free-standing interface value. *)
  with repr_any : eface -> val -> Prop :=
  | RA_nil : repr_any None VNil
  | RA_some td w v : tok td -> is_iface td = false ->
      (direct td -> repr (LTmp w 0) td v) -> (~ direct td -> repr (LMem w) td v) ->
      repr_any (Some (td, w)) (VIface td v).

  (** The interface value (td, data word wl) passed to a method holds v. *)
  Definition word_repr (td : typ) (wl : loc) (v : val) : Prop :=
    (~ direct td /\ repr wl td v) \/ (direct td /\ exists w, wl = LMem w /\ repr (LTmp w 0) td v).
  End Repr.

  (** ** The reference encoder *)
  Inductive vres := VRet (out : bytes) (err : option gerr) | VOut | VFuel.

  Definition lift (r : res) : vres :=
    match r with Ret b e => VRet b e | Crash => VOut | OutOfFuel => VFuel end.

  (** What a method returns for a value (user code): bytes or an error. *)
  Variable vcall : mkind -> typ -> val -> option Z -> bytes + Z.
  Variable o : encOpts.

  (** The method that encodes a value of type t, if any: the first interface in
      the order below that the type implements, or that its pointer implements
      when the value is addressable. *)
  Fixpoint pick (t : typ) (ca : bool) (ks : list mkind) : option (mkind * bool) :=
    match ks with
    | [] => None
    | k :: ks' =>
      if h_impl H t k then Some (k, false)
      else if negb (is_ptr H t) && ca && h_impl H (TPtr t) k then Some (k, true)
      else pick t ca ks'
    end.
  Definition method_of (t : typ) (ca : bool) : option (mkind * bool) := pick t ca [MCtx; MApp; MJson; MText].

  (** The bytes appended for the result of a method. *)
  Definition vmethod (k : mkind) (t td : typ) (v : val) : vres :=
    match k with
    | MCtx | MApp =>
      match vcall k td v (match k with MCtx => o_ctx o | _ => None end) with
      | inl b => VRet b None
      | inr e => VRet [] (Some (EMarshaler t k (IUser e)))
      end
    | MJson => lift (encode_json_result t (vcall k td v None) [] o)
    | MText => lift (encode_text_result t (vcall k td v None) [] o)
    end.

  Definition vmarshaler (n : nat) (k : mkind) (t : typ) (hasPtr : bool) (v : val) : vres :=
    if hasPtr then vmethod k (TPtr t) (TPtr t) (VPtr v)
    else
      match under E t with
      | TPtr _ =>
        match v with
        | VNil => VRet l_null None
        | VPtr _ => vmethod k t t v
        | _ => VOut
        end
      | TIface _ =>
        match v with
        | VNil => VRet l_null None
        | VIface td v' => vmethod k t td v'
        | _ => VOut
        end
      | _ =>
        match is_direct n t with
        | Some false => vmethod k t t v
        | Some true => VOut
        | None => VFuel
        end
      end.

  Definition vquote (r : vres) : vres :=
    match r with
    | VRet b None => VRet ([34] ++ b ++ [34]) None
    | VRet b (Some e) => VRet ([34] ++ b) (Some e)
    | r => r
    end.
  Definition vquote_if (q : bool) (r : vres) : vres := if q then vquote r else r.

  (** Path of a promoted field through the tree; [Some None]: a nil pointer on
      the way. *)
  Fixpoint vget (p : list nat) (v : val) : option (option val) :=
    match p with
    | [] => Some (Some v)
    | i :: p' =>
      match v with
      | VStruct vs =>
        match nth_error vs i with
        | None => None
        | Some v' =>
          match p', v' with
          | [], _ => Some (Some v')
          | _, VPtr w => vget p' w
          | _, VNil => Some None
          | _, _ => vget p' v'
          end
        end
      | _ => None
      end
    end.

  Definition vnil (v : val) : bool := match v with VNil => true | _ => false end.

  (** The values omitempty drops. *)
  Definition vempty (v : val) : bool :=
    match v with
    | VBool b => negb b
    | VInt n => n =? 0
    | VFloat f => is_zero f
    | VStr s => match s with [] => true | _ => false end
    | VNil => true
    | VSlice vs | VArr vs => match vs with [] => true | _ => false end
    | VMap es => match es with [] => true | _ => false end
    | _ => false
    end.

  Definition tail_null (b : bytes) : bool := (4 <=? length b)%nat && bytes_eqb (skipn (length b - 4) b) l_null.

  (** Sequencing: prepend what is already written. *)
  Definition vthen (pre : bytes) (r : vres) (k : bytes -> vres) : vres :=
    match r with
    | VRet b None => k (pre ++ b)
    | VRet b (Some e) => VRet (pre ++ b) (Some e)
    | r => r
    end.

  (** The byte values of a byte slice or array. *)
  Fixpoint vbytes (vs : list val) : option bytes :=
    match vs with
    | [] => Some []
    | VInt b :: vs' => match vbytes vs' with Some bs => Some (b :: bs) | None => None end
    | _ => None
    end.

  Section Rec.
    Variable rec : typ -> bool -> bool -> val -> vres.

    Definition key_text (name : bytes) : bytes :=
      if has (o_flags o) noHTMLEscaping then key_raw name else key_esc name.

    Fixpoint vfields (t : typ) (ca : bool) (v : val) (fs : list field) (first : bool) (out : bytes) : vres :=
      match fs with
      | [] => VRet (if first then out ++ [123; 125] else out ++ [125]) None
      | f :: fs' =>
        if isDeniedField o (f_name f) then vfields t ca v fs' first out
        else if negb (right_seq H t f) then VOut
        else
          match vget (f_index f) v, type_by_index H t (f_index f) with
          | Some None, _ => vfields t ca v fs' first out
          | Some (Some x), Some ft =>
            if f_omitNil f && vnil x then vfields t ca v fs' first out
            else if f_omitEmpty f && vempty x then vfields t ca v fs' first out
            else
              let et := match under E ft with TPtr e => e | _ => ft end in
              let sep := if first then [123] else [44] in
              match rec ft ca (f_quoted f && isBasicType E et) x with
              | VRet b None =>
                vfields t ca v fs' false
                  (if f_omitNil f && (h_impl H ft MJson || h_impl H (TPtr ft) MJson) && tail_null b
                   then (if first then out ++ sep else out)
                   else out ++ sep ++ key_text (f_name f) ++ b)
              | VRet b (Some e) => VRet (out ++ sep ++ key_text (f_name f) ++ b) (Some e)
              | r => r
              end
          | _, _ => VOut
          end
      end.

    Fixpoint velems (e : typ) (ca : bool) (vs : list val) (first : bool) (out : bytes) : vres :=
      match vs with
      | [] => VRet (if first then out ++ [91; 93] else out ++ [93]) None
      | v :: vs' => vthen (out ++ [if first then 91 else 44]) (rec e ca false v) (fun out => velems e ca vs' false out)
      end.

    (** A map key. *)
    Definition vkey (kt : typ) (v : val) : vres :=
      if isString E kt then match v with VStr s => VRet (encode_string [] s o) None | _ => VOut end
      else if h_impl H kt MText && is_ptr H kt && vnil v then VRet [34; 34] None
      else vquote_if (negb (h_impl H kt MText)) (rec kt false false v).
  End Rec.

  (** Maps, from what their keys and values give. *)
  Fixpoint vunsorted (es : list (vres * vres)) (first : bool) (out : bytes) : vres :=
    match es with
    | [] => VRet out None
    | (k, v) :: es' =>
      vthen (if first then out else out ++ [44]) k (fun out =>
      vthen (out ++ [58]) v (fun out => vunsorted es' false out))
    end.

  Inductive vfill_res := VFOk (kvs : list (bytes * bytes)) | VFErr (e : gerr) | VFOut | VFFuel.
  Fixpoint vfill (es : list (vres * vres)) (kvs : list (bytes * bytes)) : vfill_res :=
    match es with
    | [] => VFOk kvs
    | (VRet kb None, v) :: es' =>
      if (length kb <? 2)%nat then VFOut
      else
        match v with
        | VRet vb None => vfill es' (kvs ++ [(firstn (length kb - 2) (skipn 1 kb), kb ++ [58] ++ vb)])
        | VRet _ (Some e) => VFErr e
        | VOut => VFOut
        | VFuel => VFFuel
        end
    | (VRet _ (Some e), _) :: _ => VFErr e
    | (VOut, _) :: _ => VFOut
    | (VFuel, _) :: _ => VFFuel
    end.

  Definition vsorted (es : list (vres * vres)) (out : bytes) : vres :=
    match vfill es [] with
    | VFOk kvs => VRet (join_kvs (h_sort H kvs) true out) None
    | VFErr e => VRet out (Some e)
    | VFOut => VOut
    | VFFuel => VFuel
    end.

  Definition ventries (es : list (vres * vres)) : vres :=
    vthen [] (if has (o_flags o) unsortedMap then vunsorted es true [123] else vsorted es [123])
      (fun out => VRet (out ++ [125]) None).

  (** Encoding of a dynamic value of concrete type t. *)
  Definition vany (rec : typ -> bool -> bool -> val -> vres) (n : nat) (t : typ) (v : val) : vres :=
    match is_direct n t, isInlined H n t with
    | Some d, Some i => if Bool.eqb d i || opaque t then rec t (is_ptr H t) false v else VOut
    | _, _ => VFuel
    end.

  Definition vsync_key (rec : typ -> bool -> bool -> val -> vres) (n : nat) (k : val) : vres :=
    match k with
    | VNil => VRet [] (Some ENilKey)
    | VIface kt v =>
      let isStr := isString E kt in
      let isInt := isInteger E kt in
      let isTxt := h_impl H kt MText in
      if negb isStr && negb isInt && negb isTxt then VRet [] (Some (EKeyType kt))
      else if isStr then match v with VStr s => VRet (encode_string [] s o) None | _ => VOut end
      else vquote_if (negb isTxt) (vany rec n kt v)
    | _ => VOut
    end.

  Definition vsync_val (rec : typ -> bool -> bool -> val -> vres) (n : nat) (v : val) : vres :=
    match v with VIface vt v' => vany rec n vt v' | _ => VOut end.

  (** The five types with an encoding of their own. *)
  Definition native (t : typ) : bool :=
    match t with TSyncMap | TTime | TDuration | TNumber | TRawMessage => true | _ => false end.

  Definition vnative (rec : typ -> bool -> bool -> val -> vres) (n : nat) (t : typ) (v : val) : vres :=
    match t, v with
    | TSyncMap, VSync es => ventries (map (fun kv => (vsync_key rec n (fst kv), vsync_val rec n (snd kv))) es)
    | TTime, VTime g => lift (encode_time (h_fmt H) g [] o)
    | TDuration, VInt d => lift (encode_duration (h_shortest H) (h_tofloat H) d [] o)
    | TNumber, VStr s => lift (encode_number s [] o)
    | TRawMessage, VNil => lift (encode_raw_message None [] o)
    | TRawMessage, VSlice vs =>
      match vbytes vs with Some b => lift (encode_raw_message (Some b) [] o) | None => VOut end
    | _, _ => VOut
    end.

  (** Structs. *)
  Definition vstruct (rec : typ -> bool -> bool -> val -> vres) (n : nat) (t : typ) (ca : bool) (v : val) : vres :=
    match fields_of H t with
    | [] => VRet [123; 125] None
    | _ =>
      match structFields H n t with
      | Some fs => vfields rec t ca v fs true []
      | None => VFuel
      end
    end.

  (** Values without a method, by kind. *)
  Definition vkind (rec : typ -> bool -> bool -> val -> vres) (n : nat) (t : typ) (ca q : bool) (v : val) : vres :=
    match under E t with
    | TBool => match v with VBool b => vquote_if q (VRet (encode_bool b []) None) | _ => VOut end
    | TString =>
      match v with
      | VStr s => VRet (if q then encode_quoted_string [] s o else encode_string [] s o) None
      | _ => VOut
      end
    | TInt k => match v with VInt z => vquote_if q (VRet (encode_int k z []) None) | _ => VOut end
    | TFloat b => match v with VFloat f => vquote_if q (lift (appendFloat (h_shortest H) [] f b)) | _ => VOut end
    | TIface ms =>
      match v, ms with
      | VNil, _ => VRet l_null None
      | VIface td v', None => vany rec n td v'
      | _, _ => VOut
      end
    | TStruct _ => match v with VStruct _ => vstruct rec n t ca v | _ => VOut end
    | TMap kt et =>
      if negb (key_ok H kt) then VRet [] (Some (EUnsupportedType t))
      else
        match v with
        | VNil => VRet (if has (o_flags o) nilMapEmpty then [123; 125] else l_null) None
        | VMap [] => VRet [123; 125] None
        | VMap es => ventries (map (fun kv => (vkey rec kt (fst kv), rec et false false (snd kv))) es)
        | _ => VOut
        end
    | TSlice e =>
      match v with
      | VNil =>
        if byte_elem H e then VRet l_null None
        else VRet (if has (o_flags o) nilSliceEmpty then [91; 93] else l_null) None
      | VSlice vs =>
        if byte_elem H e then
          match vbytes vs with Some b => VRet (encode_byte_slice (Some b) [] o) None | None => VOut end
        else velems rec e true vs true []
      | _ => VOut
      end
    | TArray _ e =>
      match v with
      | VArr vs =>
        if byte_elem H e && has (o_flags o) byteArrayAsString then
          match vbytes vs with Some b => VRet (encode_string [] b o) None | None => VOut end
        else velems rec e ca vs true []
      | _ => VOut
      end
    | TPtr e =>
      match v with
      | VNil => VRet l_null None
      | VPtr v' => rec e true q v'
      | _ => VOut
      end
    | TComplex | TChan | TFunc | TUnsafePointer => VRet [] (Some (EUnsupportedType t))
    | TNamed _ | TTime | TDuration | TNumber | TRawMessage | TSyncMap => VOut
    end.

  (** Encoding of a value of type t.  [ca]: the value is addressable; [q]: the
      string option applies. *)
  Fixpoint venc (n : nat) (t : typ) (ca q : bool) (v : val) : vres :=
    match n with
    | O => VFuel
    | S n' =>
      if native t then vnative (venc n') n' t v
      else
        match method_of t ca with
        | Some (k, hp) => vmarshaler n' k t hp v
        | None => vkind (venc n') n' t ca q v
        end
    end.

  (** Encoding of what an interface value holds: the meaning of Marshal. *)
  Definition venc_any (n : nat) (t : typ) (v : val) : vres := vany (venc n) n t v.
End Value.
