(** instruction.go: how the encoder of a type is built.

    An instruction (a Go closure) is a term of [instr].  The closure of a struct
    type is the leaf [IStruct t canAddr]: the code takes it from
    structInstrCache, and [struct_body] gives the field list the closure was
    made with.  That the caches and the placeholders of recursive types always
    lead to this field list is the subject of ConcModel.v and ConcBuild.v. *)
From Verif Require Import Base IntModel OptionsModel TypesModel TypesFacts TagsModel MemModel FieldsModel.

Inductive instr :=
| IBool | IString | IQString | IInt (k : ikind) | IFloat (is64 : bool)
| IIface | INumber | IRaw | ITime | IDuration | ISyncMap
| IUnsupp (t : typ)
| IPtr (i : instr)
| IMarshaler (k : mkind) (t : typ) (hasPtr : bool)
| IStruct (t : typ) (canAddr : bool)
| IArray (i : instr) (es : Z) (n : nat) (isba : bool)
| ISlice (i : instr) (es : Z)
| IByteSlice
| IMap (ki vi : instr)
| IInline (i : instr)
| IQuoted (i : instr)
| INilText (i : instr).

Section Instr.
  Variable H : host.
  Let E := h_env H.

  (** instruction.go:117-132: newGoTypeInstr. *)
  Definition go_type_instr (t : typ) : option instr :=
    match t with
    | TSyncMap => Some ISyncMap
    | TTime => Some ITime
    | TDuration => Some IDuration
    | TNumber => Some INumber
    | TRawMessage => Some IRaw
    | _ => None
    end.

  (** instruction.go:137-161: newMarshalerTypeInstr. *)
  Definition marshaler_instr (t : typ) (canAddr : bool) : option instr :=
    let pm k := negb (is_ptr H t) && canAddr && h_impl H (TPtr t) k in
    if h_impl H t MCtx then Some (IMarshaler MCtx t false)
    else if pm MCtx then Some (IMarshaler MCtx t true)
    else if h_impl H t MApp then Some (IMarshaler MApp t false)
    else if pm MApp then Some (IMarshaler MApp t true)
    else if h_impl H t MJson then Some (IMarshaler MJson t false)
    else if pm MJson then Some (IMarshaler MJson t true)
    else if h_impl H t MText then Some (IMarshaler MText t false)
    else if pm MText then Some (IMarshaler MText t true)
    else None.

  (** instruction.go:413-423: wrapQuotedInstr, when asked for. *)
  Definition quote_if (q : bool) (i : instr) : instr := if q then IQuoted i else i.

  (** instruction.go:163-211: newBasicTypeInstr and newStringInstr. *)
  Definition basic_instr (t : typ) (quoted : bool) : option instr :=
    match under E t with
    | TBool => Some (quote_if quoted IBool)
    | TString => Some (if quoted then IQString else IString)
    | TInt k => Some (quote_if quoted (IInt k))
    | TFloat b => Some (quote_if quoted (IFloat b))
    | _ => None
    end.

  (** instruction.go:337-342 and 353-357: the elements are plain bytes. *)
  Definition byte_elem (e : typ) : bool :=
    match under E e with
    | TInt KUint8 => negb (h_impl H (TPtr e) MJson) && negb (h_impl H (TPtr e) MText)
    | _ => false
    end.

  (** instruction.go:380-382: key types of maps. *)
  Definition key_ok (kt : typ) : bool := isString E kt || isInteger E kt || h_impl H kt MText.

  (** instruction.go:387-401: the key instruction, from the one of the key type. *)
  Definition key_wrap (kt : typ) (ki : instr) : instr :=
    let ki := quote_if (negb (isString E kt) && negb (h_impl H kt MText)) ki in
    if h_impl H kt MText && is_ptr H kt then INilText ki else ki.

  (** instruction.go:85-115: newInstruction, with newPtrInstr (219-225),
      newStructInstr (251-284, see above), newMapInstr (371-405), newSliceInstr
      (350-369) and newArrayInstr (326-348).  [None]: out of fuel (the code
      recurses for ever on a type such as "type T []T"). *)
  Fixpoint compile (fuel : nat) (t : typ) (canAddr quoted : bool) : option instr :=
    match fuel with
    | O => None
    | S f =>
      match go_type_instr t with
      | Some i => Some i
      | None =>
        match marshaler_instr t canAddr with
        | Some i => Some i
        | None =>
          match basic_instr t quoted with
          | Some i => Some i
          | None =>
            match under E t with
            | TIface _ => Some IIface
            | TStruct _ => Some (IStruct t canAddr)
            | TMap kt et =>
              if negb (key_ok kt) then Some (IUnsupp t)
              else
                match (if isString E kt then Some IString else compile f kt false false) with
                | None => None
                | Some ki =>
                  match compile f et false false with
                  | None => None
                  | Some vi => Some (IMap (key_wrap kt ki) vi)
                  end
                end
            | TSlice e =>
              if byte_elem e then Some IByteSlice
              else match compile f e true false with
                   | Some i => Some (ISlice i (h_size H e))
                   | None => None
                   end
            | TArray n e =>
              match compile f e canAddr false with
              | Some i => Some (IArray i (h_size H e) n (byte_elem e))
              | None => None
              end
            | TPtr e =>
              match compile f e true quoted with
              | Some i => Some (IPtr i)
              | None => None
              end
            | _ => Some (IUnsupp t)
            end
          end
        end
      end
    end.

  (** types.go:69-78: isInlined; [None]: out of fuel. *)
  Fixpoint isInlined (fuel : nat) (t : typ) : option bool :=
    match fuel with
    | O => None
    | S f =>
      match under E t with
      | TPtr _ | TMap _ _ => Some true
      | TStruct [(_, t')] => isInlined f t'
      | _ => Some false
      end
    end.

  (** instruction.go:33-52: what cachedInstr stores and returns. *)
  Definition cached_instr (fuel : nat) (t : typ) : option instr :=
    match compile fuel t (is_ptr H t) false, isInlined fuel t with
    | Some i, Some b => Some (if b then IInline i else i)
    | _, _ => None
    end.

  (** struct.go:22-40: the part of [field] that encodeStruct uses.  [sf_empty]
      is the type cachedEmptyFuncOf was called on, if any. *)
  Record sfield := mkSF {
    sf_name : bytes; sf_seq : list seqelt; sf_omitNil : bool; sf_omitNull : bool;
    sf_empty : option typ; sf_instr : instr
  }.

  (** instruction.go:297-321: one field. *)
  Definition build_field (fuel : nat) (t : typ) (canAddr : bool) (f : field) : option sfield :=
    match type_by_index H t (f_index f) with
    | None => None
    | Some ftyp =>
      let etyp := match under E ftyp with TPtr e => e | _ => ftyp end in
      match compile fuel ftyp canAddr (f_quoted f && isBasicType E etyp) with
      | None => None
      | Some i =>
        Some (mkSF (f_name f) (f_seq f) (f_omitNil f && isNilable E ftyp)
                (f_omitNil f && (h_impl H ftyp MJson || h_impl H (TPtr ftyp) MJson))
                (if f_omitEmpty f then Some ftyp else None) i)
      end
    end.

  Fixpoint build_fields (fuel : nat) (t : typ) (canAddr : bool) (fs : list field) : option (list sfield) :=
    match fs with
    | [] => Some []
    | f :: fs' =>
      match build_field fuel t canAddr f, build_fields fuel t canAddr fs' with
      | Some s, Some ss => Some (s :: ss)
      | _, _ => None
      end
    end.

  (** instruction.go:286-324: newStructFieldsInstr; cachedFields
      (struct.go:62-74) gives structFields(t).  A struct without fields gets
      the empty list, which encodeStruct turns into {} as well. *)
  Definition struct_body (fuel : nat) (t : typ) (canAddr : bool) : option (list sfield) :=
    match fields_of H t with
    | [] => Some []
    | _ =>
      match structFields H fuel t with
      | Some fs => build_fields fuel t canAddr fs
      | None => None
      end
    end.
End Instr.
