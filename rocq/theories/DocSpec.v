(** What the encoding of a value is documented to mean, as a JSON value.

    [doc] is stated on value trees: it does not mention memory, instructions or
    the bytes written.  It follows the documentation of encoding/json, which
    the package says it implements (README.md, json.go), and of the options
    (options.go:109-234).  A value may have several meanings where order or
    spelling is not fixed (members of maps). *)
From Coq Require Import Permutation.
From Verif Require Import Base Utf8 IntModel JsonSpec OptionsModel IntProof TypesModel TypesFacts TimeModel CalendarSpec TimeProof FloatModel FloatProof
  DurationProof LeafProof Base64Proof MemModel FieldsSpec FieldsModel InstrModel ValueModel.

(** The decimal text of a float: the value of the shortest decimal. *)
Definition float_text (shortest : bool -> positive -> Z -> bytes * Z) (is64 : bool) (f : fval) (l : bytes) : Prop :=
  match f with
  | FNaN | FInf _ => False
  | FZero neg => l = (if neg then [45; 48] else [48])
  | FFin neg m e =>
    exists ds dp M K, shortest is64 m e = (ds, dp) /\ num_value l M K /\
      same_dec M K (fsign neg (dval ds)) (dp - Z.of_nat (length ds))
  end.

(** A field is hidden by the allow and deny lists. *)
Definition denied (o : encOpts) (name : bytes) : Prop :=
  (exists d, o_deny o = Some d /\ In name d) \/ (exists a, o_allow o = Some a /\ ~ In name a).

Section Doc.
  Variable H : host.
  Variable vcall : mkind -> typ -> val -> option Z -> bytes + Z.
  Variable o : encOpts.
  Notation E := (h_env H).
  Notation opt := (has (o_flags o)).

  (** The value a method is called on, and its type: the address of the value
      for a pointer receiver, what an interface holds, else the value. *)
  Inductive receiver : typ -> bool -> val -> typ -> val -> Prop :=
  | rc_addr t v : receiver t true v (TPtr t) (VPtr v)
  | rc_dyn t ms td w : under E t = TIface ms -> receiver t false (VIface td w) td w
  | rc_val t v : is_iface H t = false -> (is_ptr H t = true -> v <> VNil) -> receiver t false v t v.

  Definition ctx_of (k : mkind) : option Z := match k with MCtx => o_ctx o | _ => None end.

  (** What the bytes returned by a method mean. *)
  Definition result_means (k : mkind) (b : bytes) (j : jval) : Prop :=
    match k with
    | MCtx | MApp | MJson => json_text true j b
    | MText => exists us, string_units b us /\ j = JStr us
    end.

  (** The value x of a selected field f of the struct value v of type t. *)
  Definition field_value (t : typ) (v : val) (f : field) (ft : typ) (x : val) : Prop :=
    vget (f_index f) v = Some (Some x) /\ type_by_index H t (f_index f) = Some ft.

  Definition dropped (f : field) (x : val) : Prop :=
    (f_omitNil f = true /\ vnil x = true) \/ (f_omitEmpty f = true /\ vempty x = true).

  (** The field is left out: by the lists, behind a nil embedded pointer, or by
      omitnil or omitempty. *)
  Definition hidden (t : typ) (v : val) (f : field) : Prop :=
    denied o (f_name f) \/ vget (f_index f) v = Some None \/ exists ft x, field_value t v f ft x /\ dropped f x.

  Definition shown (t : typ) (v : val) (f : field) (ft : typ) (x : val) : Prop :=
    ~ denied o (f_name f) /\ field_value t v f ft x /\ ~ dropped f x.

  (** omitnil also drops the null a json.Marshaler produces. *)
  Definition drops_null (f : field) (ft : typ) : Prop :=
    f_omitNil f = true /\ (h_impl H ft MJson = true \/ h_impl H (TPtr ft) MJson = true).

  (** The string option applies to basic types and pointers to them. *)
  Definition quoted (f : field) (ft : typ) : bool :=
    f_quoted f && isBasicType E (match under E ft with TPtr e => e | _ => ft end).

  (** [plain t ca]: encoded by kind. *)
  Definition plain (t : typ) (ca : bool) : Prop := native t = false /\ method_of H t ca = None.

  (** A duration as a number, in the unit of the format. *)
  Inductive dur_number : Z -> bytes -> Prop :=
  | dn_min d l : o_durationFmt o = DurationMinutes -> float_text (h_shortest H) true (h_tofloat H true d) l -> dur_number d l
  | dn_sec d l : o_durationFmt o = DurationSeconds -> float_text (h_shortest H) true (h_tofloat H false d) l -> dur_number d l
  | dn_ms d l : o_durationFmt o = DurationMilliseconds -> int_lit l (Z.quot d 1000000) -> dur_number d l
  | dn_us d l : o_durationFmt o = DurationMicroseconds -> int_lit l (Z.quot d 1000) -> dur_number d l
  | dn_ns d l : o_durationFmt o = DurationNanoseconds -> int_lit l d -> dur_number d l.

  Inductive doc : typ -> bool -> bool -> val -> jval -> Prop :=
  (* the five types with an encoding of their own *)
  | D_unix ca q g l : opt unixTime = true -> int_lit l (t_unix g) -> doc TTime ca q (VTime g) (JNum l)
  | D_time ca q g nano s us y mo d hh mi ss : opt unixTime = false ->
      o_timeLayout o = (if nano : bool then layout_RFC3339Nano else layout_RFC3339) ->
      date_time s y mo d hh mi ss (if nano then t_nsec g else 0) (60 * Z.quot (t_offset g) 60) ->
      civil (t_unix g + t_offset g) y mo d hh mi ss -> string_units s us ->
      doc TTime ca q (VTime g) (JStr us)
  | D_layout ca q g us : opt unixTime = false -> o_timeLayout o <> layout_RFC3339Nano -> o_timeLayout o <> layout_RFC3339 ->
      string_units (h_fmt H g (o_timeLayout o)) us -> doc TTime ca q (VTime g) (JStr us)
  | D_dur ca d l : dur_number d l -> doc TDuration ca false (VInt d) (JNum l)
  | D_dur_str ca d s us : o_durationFmt o = DurationString -> dur_text s d -> string_units s us ->
      doc TDuration ca false (VInt d) (JStr us)
  | D_num ca s : jnumber s -> doc TNumber ca false (VStr s) (JNum s)
  | D_num_empty ca : doc TNumber ca false (VStr []) (JNum [48])
  | D_raw_nil ca q : doc TRawMessage ca q VNil JNull
  | D_raw ca q vs b j : vbytes vs = Some b -> json_text true j b -> doc TRawMessage ca q (VSlice vs) j
  | D_sync ca q es ms ms' : doc_sync es ms -> Permutation ms ms' -> doc TSyncMap ca q (VSync es) (JObj ms')
  (* user methods *)
  | D_method t ca q k hp v td w b j : native t = false -> method_of H t ca = Some (k, hp) -> receiver t hp v td w ->
      vcall k td w (ctx_of k) = inl b -> result_means k b j -> doc t ca q v j
  | D_method_nil t ca q k : native t = false -> method_of H t ca = Some (k, false) -> is_ptr H t = true \/ is_iface H t = true ->
      doc t ca q VNil JNull
  (* kinds *)
  | D_bool t ca b : plain t ca -> under E t = TBool -> doc t ca false (VBool b) (JBool b)
  | D_int t ca k n l : plain t ca -> under E t = TInt k -> int_lit l n -> doc t ca false (VInt n) (JNum l)
  | D_float t ca b f l : plain t ca -> under E t = TFloat b -> float_text (h_shortest H) b f l -> doc t ca false (VFloat f) (JNum l)
  | D_str t ca s us : plain t ca -> under E t = TString -> string_units s us -> doc t ca false (VStr s) (JStr us)
  | D_quoted t ca v j s us : plain t ca -> isBasicType E t = true -> doc t ca false v j -> cjson j s -> string_units s us ->
      doc t ca true v (JStr us)
  | D_nil_iface t ca q ms : plain t ca -> under E t = TIface ms -> doc t ca q VNil JNull
  | D_iface t ca q ms td v j : plain t ca -> under E t = TIface ms -> doc td (is_ptr H td) false v j -> doc t ca q (VIface td v) j
  | D_nil_ptr t ca q e : plain t ca -> under E t = TPtr e -> doc t ca q VNil JNull
  | D_ptr t ca q e v j : plain t ca -> under E t = TPtr e -> doc e true q v j -> doc t ca q (VPtr v) j
  | D_nil_slice t ca q e : plain t ca -> under E t = TSlice e ->
      doc t ca q VNil (if opt nilSliceEmpty then JArr [] else JNull)
  | D_slice t ca q e vs js : plain t ca -> under E t = TSlice e -> byte_elem H e = false -> doc_elems e true vs js ->
      doc t ca q (VSlice vs) (JArr js)
  | D_base64 t ca q e vs b s us : plain t ca -> under E t = TSlice e -> byte_elem H e = true -> opt rawByteSlice = false ->
      vbytes vs = Some b -> base64_text s b -> string_units s us -> doc t ca q (VSlice vs) (JStr us)
  | D_rawbytes t ca q e vs b us : plain t ca -> under E t = TSlice e -> byte_elem H e = true -> opt rawByteSlice = true ->
      vbytes vs = Some b -> string_units b us -> doc t ca q (VSlice vs) (JStr us)
  | D_array t ca q n e vs js : plain t ca -> under E t = TArray n e -> byte_elem H e && opt byteArrayAsString = false ->
      doc_elems e ca vs js -> doc t ca q (VArr vs) (JArr js)
  | D_bytearray t ca q n e vs b us : plain t ca -> under E t = TArray n e -> byte_elem H e = true -> opt byteArrayAsString = true ->
      vbytes vs = Some b -> string_units b us -> doc t ca q (VArr vs) (JStr us)
  | D_nil_map t ca q kt et : plain t ca -> under E t = TMap kt et -> key_ok H kt = true ->
      doc t ca q VNil (if opt nilMapEmpty then JObj [] else JNull)
  | D_map t ca q kt et es ms ms' : plain t ca -> under E t = TMap kt et -> key_ok H kt = true -> doc_entries kt et es ms ->
      Permutation ms ms' -> doc t ca q (VMap es) (JObj ms')
  | D_struct t ca q fs0 k fs vs ms : plain t ca -> under E t = TStruct fs0 -> structFields H k t = Some fs ->
      doc_fields t ca (VStruct vs) fs ms -> doc t ca q (VStruct vs) (JObj ms)

  with doc_elems : typ -> bool -> list val -> list jval -> Prop :=
  | DE_nil e ca : doc_elems e ca [] []
  | DE_cons e ca v j vs js : doc e ca false v j -> doc_elems e ca vs js -> doc_elems e ca (v :: vs) (j :: js)

  (** Map keys: strings; the text of a TextMarshaler; integers in decimal. *)
  with doc_key : typ -> bool -> val -> list cu -> Prop :=
  | K_str kt ca s us : isString E kt = true -> string_units s us -> doc_key kt ca (VStr s) us
  | K_nil kt ca : isString E kt = false -> h_impl H kt MText = true -> is_ptr H kt = true -> doc_key kt ca VNil []
  | K_text kt ca v us : isString E kt = false -> h_impl H kt MText = true ->
      (kt = TTime \/ exists hp, method_of H kt ca = Some (MText, hp)) -> doc kt ca false v (JStr us) -> doc_key kt ca v us
  | K_int kt ca v l : isInteger E kt = true -> h_impl H kt MText = false ->
      (kt = TDuration \/ plain kt ca) -> doc kt ca false v (JNum l) -> doc_key kt ca v (map U16 l)

  with doc_entries : typ -> typ -> list (val * val) -> list (list cu * jval) -> Prop :=
  | DM_nil kt et : doc_entries kt et [] []
  | DM_cons kt et k us v j es ms : doc_key kt false k us -> doc et false false v j -> doc_entries kt et es ms ->
      doc_entries kt et ((k, v) :: es) ((us, j) :: ms)

  (** The entries of a sync.Map: interface values. *)
  with doc_sync : list (val * val) -> list (list cu * jval) -> Prop :=
  | DS_nil : doc_sync [] []
  | DS_cons kt k us vt v j es ms : doc_key kt (is_ptr H kt) k us -> doc vt (is_ptr H vt) false v j -> doc_sync es ms ->
      doc_sync ((VIface kt k, VIface vt v) :: es) ((us, j) :: ms)

  (** The members for the selected fields, in order. *)
  with doc_fields : typ -> bool -> val -> list field -> list (list cu * jval) -> Prop :=
  | DF_nil t ca v : doc_fields t ca v [] []
  | DF_hidden t ca v f fs ms : hidden t v f -> doc_fields t ca v fs ms -> doc_fields t ca v (f :: fs) ms
  | DF_null t ca v f fs ms ft x : shown t v f ft x -> drops_null f ft -> doc ft ca (quoted f ft) x JNull ->
      doc_fields t ca v fs ms -> doc_fields t ca v (f :: fs) ms
  | DF_show t ca v f fs ms ft x us j : shown t v f ft x -> doc ft ca (quoted f ft) x j -> ~ (drops_null f ft /\ j = JNull) ->
      string_units (f_name f) us -> doc_fields t ca v fs ms -> doc_fields t ca v (f :: fs) ((us, j) :: ms).

  (** ** The parts of a value that are encoded
      A node: type, addressable, string option, value. *)
  Definition node : Type := typ * bool * bool * val.

  Inductive child : node -> node -> Prop :=
  | ch_ptr t ca q e v : plain t ca -> under E t = TPtr e -> child (t, ca, q, VPtr v) (e, true, q, v)
  | ch_iface t ca q td v : plain t ca -> under E t = TIface None -> child (t, ca, q, VIface td v) (td, is_ptr H td, false, v)
  | ch_slice t ca q e vs v : plain t ca -> under E t = TSlice e -> byte_elem H e = false -> In v vs ->
      child (t, ca, q, VSlice vs) (e, true, false, v)
  | ch_array t ca q n e vs v : plain t ca -> under E t = TArray n e -> byte_elem H e && opt byteArrayAsString = false -> In v vs ->
      child (t, ca, q, VArr vs) (e, ca, false, v)
  | ch_key t ca q kt et es k v : plain t ca -> under E t = TMap kt et -> key_ok H kt = true -> In (k, v) es -> isString E kt = false ->
      (h_impl H kt MText && is_ptr H kt && vnil k) = false -> child (t, ca, q, VMap es) (kt, false, false, k)
  | ch_elem t ca q kt et es k v : plain t ca -> under E t = TMap kt et -> key_ok H kt = true -> In (k, v) es ->
      child (t, ca, q, VMap es) (et, false, false, v)
  | ch_field t ca q fs0 n fs vs f ft x : plain t ca -> under E t = TStruct fs0 -> structFields H n t = Some fs -> In f fs ->
      shown t (VStruct vs) f ft x -> child (t, ca, q, VStruct vs) (ft, ca, quoted f ft, x)
  | ch_skey ca q es kt k v : In (VIface kt k, v) es -> isString E kt = false -> (isInteger E kt || h_impl H kt MText) = true ->
      child (TSyncMap, ca, q, VSync es) (kt, is_ptr H kt, false, k)
  | ch_sval ca q es k vt v : In (k, VIface vt v) es -> child (TSyncMap, ca, q, VSync es) (vt, is_ptr H vt, false, v).

  Inductive part : node -> node -> Prop :=
  | part_refl x : part x x
  | part_step x y z : child x y -> part y z -> part x z.

  (** ** Values encoded as documented
      Conditions on one node, under which nothing in the findings of
      DESIGN.md applies.  [lax] allows user-supplied JSON to contain invalid
      UTF-8. *)
  Variable lax : bool.

  (** Text that needs no escape in a JSON string. *)
  Definition plain_text (b : bytes) : Prop :=
    exists rs, utf8_string b rs /\ Forall (fun r => 0x20 <= r /\ r <> 34 /\ r <> 92) rs.
  (** ... or only the ones that decoding once removes. *)
  Definition quotable (b : bytes) : Prop :=
    exists segs, segments b segs /\ Forall (fun u => match u with inl r => 0x20 <= r /\ r <> 34 /\ r <> 92 | inr _ => True end) segs.

  (** JSON given by the user. *)
  Definition json_given (b : bytes) : Prop :=
    exists j, if opt noCompact then json no_ws lax j b else json_text lax j b.

  Definition time_sound (g : gtime) : Prop :=
    opt unixTime = true \/
    ((o_timeLayout o = layout_RFC3339Nano \/ o_timeLayout o = layout_RFC3339) /\ time_year g <> 0 /\ Z.abs (t_offset g) < 360000) \/
    (o_timeLayout o <> layout_RFC3339Nano /\ o_timeLayout o <> layout_RFC3339 /\ plain_text (h_fmt H g (o_timeLayout o))).

  Definition key_sound (kt : typ) (ca : bool) (k : val) : Prop :=
    isString E kt = false ->
    if h_impl H kt MText then
      (kt = TTime /\ opt unixTime = false) \/ (native kt = false /\ (exists hp, method_of H kt ca = Some (MText, hp)) /\ (is_ptr H kt = false -> k <> VNil))
    else (kt = TDuration /\ o_durationFmt o <> DurationString) \/ plain kt ca.

  Definition result_sound (k : mkind) (b : bytes) : Prop :=
    match k with
    | MCtx | MApp => exists j, json no_ws lax j b
    | MJson => if opt noCompact then exists j, json no_ws lax j b else lax = false -> valid_json b
    | MText => plain_text b
    end.

  Definition sound_node (x : node) : Prop :=
    let '(t, ca, q, v) := x in
    match t, v with
    | TTime, VTime g => time_sound g
    | TDuration, _ => q = false
    | TNumber, VStr s => q = false /\ (opt noNumberValidation = true -> s = [] \/ jnumber s)
    | TRawMessage, VSlice vs => forall b, vbytes vs = Some b -> json_given b
    | TSyncMap, VSync es =>
      forall kt k v, In (VIface kt k, v) es -> key_sound kt (is_ptr H kt) k /\ (h_impl H kt MText = true -> k <> VNil)
    | TRawMessage, _ | TNumber, _ | TTime, _ | TSyncMap, _ => True
    | _, _ =>
      match method_of H t ca with
      | Some (k, hp) => forall td w b, receiver t hp v td w -> vcall k td w (ctx_of k) = inl b -> result_sound k b
      | None =>
        match under E t, v with
        | TString, VStr s => q = true -> quotable s
        | TSlice e, VNil => byte_elem H e = true -> opt nilSliceEmpty = false
        | TMap kt _, VMap es => forall k v, In (k, v) es -> key_sound kt false k
        | TStruct _, VStruct vs =>
          (* the first member is not a null that omitnil drops *)
          forall n pre f post ft x, structFields H n t = Some (pre ++ f :: post) -> Forall (hidden t v) pre -> shown t v f ft x ->
            drops_null f ft -> ~ doc ft ca (quoted f ft) x JNull
        | _, _ => True
        end
      end
    end.

  (** ** Values read safely *)
  Inductive inlined : typ -> Prop :=
  | in_ptr t e : under E t = TPtr e -> inlined t
  | in_map t k e : under E t = TMap k e -> inlined t
  | in_struct t d u : under E t = TStruct [(d, u)] -> inlined u -> inlined t.

  (** A dynamic type whose values are found where the code looks for them. *)
  Definition dyn_ok (t : typ) : Prop := opaque H t = true \/ (direct H t -> inlined t).

  Definition key_readable (kt : typ) (ca : bool) : Prop :=
    opt unsortedMap = true \/ isString E kt = true \/ h_impl H kt MText = false \/
    (kt = TTime /\ opt unixTime = false) \/ (native kt = false /\ exists hp, method_of H kt ca = Some (MText, hp)).

  Definition readable_node (x : node) : Prop :=
    let '(t, ca, q, v) := x in
    match t, v with
    | TSyncMap, VSync es =>
      forall k v, In (k, v) es -> v <> VNil /\ (forall kt k', k = VIface kt k' -> dyn_ok kt /\ key_readable kt (is_ptr H kt)) /\
        (forall vt v', v = VIface vt v' -> dyn_ok vt)
    | TDuration, _ | TNumber, _ | TRawMessage, _ | TTime, _ | TSyncMap, _ => True
    | _, _ =>
      match method_of H t ca with
      | Some (_, true) => True
      | Some (_, false) => match under E t with TPtr _ | TIface _ => True | _ => ~ direct H t end
      | None =>
        match under E t, v with
        | TIface (Some _), VIface _ _ => False
        | TIface None, VIface td _ => dyn_ok td
        | TMap kt _, VMap _ => key_readable kt false
        | TStruct _, VStruct _ =>
          forall n fs f p sq w i, structFields H n t = Some fs -> In f fs -> ~ denied o (f_name f) -> f_index f = p ++ [i] ->
            epath E (h_off H) (h_letter H) (h_udigit H) t p sq w -> unshared E (h_off H) (h_letter H) (h_udigit H) t p
        | _, _ => True
        end
      end
    end.
End Doc.
