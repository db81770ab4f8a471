(** Go types as seen through package reflect, and the outcome of an encoder. *)
From Verif Require Import Base IntModel OptionsModel.

(** A struct field declaration, without its type (reflect.StructField).
    [fd_unexported] is PkgPath <> "", [fd_tag] is Tag.Get("json"). *)
Record fdecl := mkFD { fd_name : bytes; fd_unexported : bool; fd_anon : bool; fd_tag : bytes }.

(** Types.  [TNamed n] is a declared type; its underlying type literal is given
    by an environment, so that recursive types are finite terms.  The five
    types with a native encoding (instruction.go:117-132) are constants.
    [TIface None] is interface{}, [TIface (Some i)] an interface type with
    methods.  [TFloat true] is float64.  Chan, func, complex and unsafe.Pointer
    have a constructor each; their element types play no role. *)
Inductive typ :=
| TBool | TInt (k : ikind) | TFloat (is64 : bool) | TString
| TComplex | TChan | TFunc | TUnsafePointer
| TIface (methods : option nat)
| TPtr (t : typ)
| TSlice (t : typ)
| TArray (n : nat) (t : typ)
| TMap (k e : typ)
| TStruct (fs : list (fdecl * typ))
| TNamed (n : nat)
| TTime | TDuration | TNumber | TRawMessage | TSyncMap.

(** Underlying types of the declared types. *)
Definition tenv := nat -> typ.

(** reflect.Type.Kind, with the element types kept. *)
Definition under (E : tenv) (t : typ) : typ :=
  match t with
  | TNamed n => E n
  | TDuration => TInt KInt64
  | TNumber => TString
  | TRawMessage => TSlice (TInt KUint8)
  | TTime => TStruct [(mkFD (lit "wall") true false [], TInt KUint64);
                      (mkFD (lit "ext") true false [], TInt KInt64);
                      (mkFD (lit "loc") true false [], TPtr TTime)]
  | TSyncMap => TStruct [(mkFD (lit "mu") true false [], TTime);
                         (mkFD (lit "read") true false [], TTime);
                         (mkFD (lit "dirty") true false [], TTime);
                         (mkFD (lit "misses") true false [], TInt KInt)]
  | _ => t
  end.

(** An environment is well formed when underlying types are type literals
    (Go spec, "Types"). *)
Definition is_named (t : typ) : bool :=
  match t with TNamed _ | TTime | TDuration | TNumber | TRawMessage | TSyncMap => true | _ => false end.
Definition wf_env (E : tenv) : Prop := forall n, is_named (E n) = false.

(** types.go:35-67 *)
Definition isString (E : tenv) (t : typ) : bool := match under E t with TString => true | _ => false end.
Definition isBoolean (E : tenv) (t : typ) : bool := match under E t with TBool => true | _ => false end.
Definition isFloatingPoint (E : tenv) (t : typ) : bool := match under E t with TFloat _ => true | _ => false end.
Definition isInteger (E : tenv) (t : typ) : bool := match under E t with TInt _ => true | _ => false end.
Definition isBasicType (E : tenv) (t : typ) : bool :=
  isBoolean E t || isString E t || isFloatingPoint E t || isInteger E t.

(** types.go:80-86: isNilable *)
Definition isNilable (E : tenv) (t : typ) : bool :=
  match under E t with TPtr _ | TIface _ | TSlice _ | TMap _ _ => true | _ => false end.

(** The four user encoding interfaces (json.go:15-27; json.Marshaler,
    encoding.TextMarshaler). *)
Inductive mkind := MCtx | MApp | MJson | MText.

(** Errors (json.go:38-105 and the errors.New/fmt.Errorf calls of encode.go). *)
Inductive inner := IUser (e : Z) | ISyntax.
Inductive gerr :=
| EYear                                          (* encode.go:113 *)
| EUnsupportedValue (s : bytes)                  (* encode.go:157, the Str field *)
| EInvalidNumber (s : bytes)                     (* encode.go:89 *)
| EUnsupportedType (t : typ)                     (* instruction.go:215 *)
| EMarshaler (t : typ) (k : mkind) (e : inner)   (* encode.go:684-722 *)
| ENilKey                                        (* encode.go:593 *)
| EKeyType (t : typ)                             (* encode.go:602 *)
| EInvalidOption (e : oerr).                     (* json.go:139,156 *)

(** What running an instruction gives: the extended buffer and an error, a
    run-time panic or wild memory access, or exhausted fuel. *)
Inductive res := Ret (dst : bytes) (err : option gerr) | Crash | OutOfFuel.

(** Outcome of the encoders that cannot run out of fuel, in res. *)
Definition ret_opt (r : option bytes) : res := match r with Some b => Ret b None | None => Crash end.
