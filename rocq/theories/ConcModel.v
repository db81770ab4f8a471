(** Concurrent calls: caches, pools and byte arrays (instruction.go, struct.go,
    types.go, buffer.go, map.go, json.go and the map encoders of encode.go).

    A goroutine is a tree of atomic actions on the shared state ([prog]); any
    interleaving of the actions of any number of goroutines is an execution.
    Recursive functions are the actions [PBuild] (newInstruction) and [PRun]
    (running an instruction), which unfold to the body of the function.

    A leaf encoder writes its bytes in any number of pieces, each of which may
    move the slice and may leave anything after its length ([PWrites]).

    Simplifications: an array starts where the slice that refers to it starts and ends at its capacity; the
    memory that holds the value does not change during the call. *)
From Coq Require Import Permutation.
From Verif Require Import Base IntModel JsonSpec OptionsModel EscapeModel TypesModel TypesFacts TagsModel TimeModel FloatModel LeafModel Base64Model MemModel FieldsModel InstrModel ExecModel.

(** A slice of a byte array: its first bytes.  The capacity is the length of
    the array. *)
Record slice := mkSl { s_arr : nat; s_len : nat }.
(** A sub-slice, b[lo:hi]. *)
Record sub := mkSub { r_arr : nat; r_lo : nat; r_hi : nat }.
(** map.go:15-18: kv *)
Definition kvsub : Type := sub * sub.
(** map.go:39-54: hiter, as the entries left. *)
Definition hiter : Type := list (Z * Z).

(** struct.go:22-40: what encodeStruct uses, but the instruction. *)
Record cmeta := mkCM { cm_name : bytes; cm_seq : list seqelt; cm_omitNil : bool; cm_omitNull : bool; cm_empty : option typ }.

(** A closure.  [KWait t ca] is the placeholder stored for a struct type under
    construction (instruction.go:269-272), [KStruct] the real one. *)
Inductive clos :=
| KLeaf (i : instr)
| KPtr (c : clos)
| KArray (c : clos) (es : Z) (n : nat) (isba : bool)
| KSlice (c : clos) (es : Z)
| KMap (kc vc : clos)
| KInline (c : clos)
| KQuoted (c : clos)
| KNilText (c : clos)
| KStruct (fs : list (cmeta * clos))
| KWait (t : typ) (ca : bool).

(** Atomic actions on the shared state, and their answers. *)
Inductive op :=
(* byte arrays *)
| OAppend (s : slice) (b : bytes)
| OAppendSub (s : slice) (r : sub)
| OMake (n : nat)
| OCopy (d s : slice)
| OWrite (s : slice) (i : nat) (b : bytes)
| OCap (s : slice)
| ORead (s : slice)
| OSpoil (s : slice)
| OUser (s : slice) (b : bytes)
| OPieces (b : bytes)
(* pools *)
| OGetBuf
| OPutBuf (s : slice)
| OGetMel
| OPutMel (l : list kvsub)
| OGetIter
| OPutIter (it : hiter)
| OSort (l : list kvsub)
(* caches *)
| OLoadCache
| OStoreCache (c : list (typ * clos))
| OLoadStruct (t : typ) (ca : bool)
| OLoadOrStoreStruct (t : typ) (ca : bool)
| OSetIns (t : typ) (ca : bool) (fs : list (cmeta * clos))
| ODone (t : typ) (ca : bool)
| OStoreStruct (t : typ) (ca : bool) (c : clos)
| OWait (t : typ) (ca : bool)
| OLoadFields (t : typ)
| OLoadOrStoreFields (t : typ) (fs : list field)
| OLoadEmpty (t : typ)
| OLoadOrStoreEmpty (t e : typ)
(* computations *)
| OStructFields (t : typ)
| OInlined (t : typ).

Inductive answer :=
| AUnit
| ASlice (s : slice) | ASliceOpt (s : option slice)
| ANat (n : nat) | ABytes (b : bytes) | APieces (l : list bytes) | ABool (b : bool)
| AMel (l : list kvsub) | AMelOpt (l : option (list kvsub)) | AIterOpt (it : option hiter)
| ACache (c : list (typ * clos)) | AClosOpt (c : option clos) | AIns (fs : list (cmeta * clos))
| AFields (fs : list field) | AFieldsOpt (fs : option (list field))
| ATyp (t : typ) | ATypOpt (t : option typ).

Inductive prog (A : Type) : Type :=
| PRet (x : A)
| PPanic
| POp (o : op) (k : answer -> prog A)
| PBuild (t : typ) (ca q : bool) (k : clos -> prog A)
| PRun (o : encOpts) (m : mem) (c : clos) (p : loc) (s : slice) (k : slice * option gerr -> prog A).
Arguments PRet {A}. Arguments PPanic {A}. Arguments POp {A}. Arguments PBuild {A}. Arguments PRun {A}.

Fixpoint pbind {A B} (p : prog A) (f : A -> prog B) : prog B :=
  match p with
  | PRet x => f x
  | PPanic => PPanic
  | POp o k => POp o (fun x => pbind (k x) f)
  | PBuild t ca q k => PBuild t ca q (fun x => pbind (k x) f)
  | PRun o m c p s k => PRun o m c p s (fun x => pbind (k x) f)
  end.

(** An action that answers with a value of the right kind. *)
Section Actions.
  Context {A : Type}.
  Definition to_unit (k : prog A) (x : answer) : prog A := match x with AUnit => k | _ => PPanic end.
  Definition to_slice (k : slice -> prog A) (x : answer) : prog A := match x with ASlice s => k s | _ => PPanic end.
  Definition to_slice_opt (k : option slice -> prog A) (x : answer) : prog A := match x with ASliceOpt s => k s | _ => PPanic end.
  Definition to_nat (k : nat -> prog A) (x : answer) : prog A := match x with ANat s => k s | _ => PPanic end.
  Definition to_bytes (k : bytes -> prog A) (x : answer) : prog A := match x with ABytes s => k s | _ => PPanic end.
  Definition to_pieces (k : list bytes -> prog A) (x : answer) : prog A := match x with APieces s => k s | _ => PPanic end.
  Definition to_bool (k : bool -> prog A) (x : answer) : prog A := match x with ABool s => k s | _ => PPanic end.
  Definition to_mel (k : list kvsub -> prog A) (x : answer) : prog A := match x with AMel s => k s | _ => PPanic end.
  Definition to_mel_opt (k : option (list kvsub) -> prog A) (x : answer) : prog A := match x with AMelOpt s => k s | _ => PPanic end.
  Definition to_iter_opt (k : option hiter -> prog A) (x : answer) : prog A := match x with AIterOpt s => k s | _ => PPanic end.
  Definition to_cache (k : list (typ * clos) -> prog A) (x : answer) : prog A := match x with ACache s => k s | _ => PPanic end.
  Definition to_clos_opt (k : option clos -> prog A) (x : answer) : prog A := match x with AClosOpt s => k s | _ => PPanic end.
  Definition to_ins (k : list (cmeta * clos) -> prog A) (x : answer) : prog A := match x with AIns s => k s | _ => PPanic end.
  Definition to_fields (k : list field -> prog A) (x : answer) : prog A := match x with AFields s => k s | _ => PPanic end.
  Definition to_fields_opt (k : option (list field) -> prog A) (x : answer) : prog A := match x with AFieldsOpt s => k s | _ => PPanic end.
  Definition to_typ (k : typ -> prog A) (x : answer) : prog A := match x with ATyp s => k s | _ => PPanic end.
  Definition to_typ_opt (k : option typ -> prog A) (x : answer) : prog A := match x with ATypOpt s => k s | _ => PPanic end.
  Definition PAppend s b k := POp (OAppend s b) (to_slice k).
  Definition PAppendSub s r k := POp (OAppendSub s r) (to_slice k).
  Definition PMake n k := POp (OMake n) (to_slice k).
  Definition PCopy d s k := POp (OCopy d s) (to_unit k).
  Definition PWrite s i b k := POp (OWrite s i b) (to_unit k).
  Definition PCap s k := POp (OCap s) (to_nat k).
  Definition PRead s k := POp (ORead s) (to_bytes k).
  Definition PSpoil s k := POp (OSpoil s) (to_unit k).
  Definition PUser s b k := POp (OUser s b) (to_slice k).
  Fixpoint writes (l : list bytes) (s : slice) (k : slice -> prog A) : prog A :=
    match l with [] => k s | b :: l => PUser s b (fun s => writes l s k) end.
  Definition PWrites s b k := POp (OPieces b) (to_pieces (fun l => writes l s k)).
  Definition PGetBuf k := POp OGetBuf (to_slice_opt k).
  Definition PPutBuf s k := POp (OPutBuf s) (to_unit k).
  Definition PGetMel k := POp OGetMel (to_mel_opt k).
  Definition PPutMel l k := POp (OPutMel l) (to_unit k).
  Definition PGetIter k := POp OGetIter (to_iter_opt k).
  Definition PPutIter it k := POp (OPutIter it) (to_unit k).
  Definition PSort l k := POp (OSort l) (to_mel k).
  Definition PLoadCache k := POp OLoadCache (to_cache k).
  Definition PStoreCache c k := POp (OStoreCache c) (to_unit k).
  Definition PLoadStruct t ca k := POp (OLoadStruct t ca) (to_clos_opt k).
  Definition PLoadOrStoreStruct t ca k := POp (OLoadOrStoreStruct t ca) (to_clos_opt k).
  Definition PSetIns t ca fs k := POp (OSetIns t ca fs) (to_unit k).
  Definition PDone t ca k := POp (ODone t ca) (to_unit k).
  Definition PStoreStruct t ca c k := POp (OStoreStruct t ca c) (to_unit k).
  Definition PWait t ca k := POp (OWait t ca) (to_ins k).
  Definition PLoadFields t k := POp (OLoadFields t) (to_fields_opt k).
  Definition PLoadOrStoreFields t fs k := POp (OLoadOrStoreFields t fs) (to_fields k).
  Definition PLoadEmpty t k := POp (OLoadEmpty t) (to_typ_opt k).
  Definition PLoadOrStoreEmpty t e k := POp (OLoadOrStoreEmpty t e) (to_typ k).
  Definition PStructFields t k := POp (OStructFields t) (to_fields k).
  Definition PInlined t k := POp (OInlined t) (to_bool k).
End Actions.

Definition lookup_typ {X} (l : list (typ * X)) (t : typ) : option X :=
  match find (fun e => typ_eqb t (fst e)) l with Some (_, x) => Some x | None => None end.
Definition key_eqb (k k' : typ * bool) : bool := typ_eqb (fst k) (fst k') && Bool.eqb (snd k) (snd k').
Definition lookup_key {X} (l : list (typ * bool * X)) (k : typ * bool) : option X :=
  match find (fun e => key_eqb k (fst e)) l with Some (_, x) => Some x | None => None end.

(** A result and an error, as instructions return them. *)
Definition sres : Type := slice * option gerr.
Definition ok_s (s : slice) : prog sres := PRet (s, None).
Definition emit (s : slice) (b : bytes) : prog sres := PAppend s b ok_s.
Definition thens (p : prog sres) (k : slice -> prog sres) : prog sres :=
  pbind p (fun r => match r with (s, None) => k s | (s, Some e) => PRet (s, Some e) end).

Section Progs.
  Variable H : host.
  Notation E := (h_env H).

  (** ** Building instructions *)
  Definition leaf_clos (i : instr) : clos := match i with IQuoted i => KQuoted (KLeaf i) | _ => KLeaf i end.
  Definition ckey_wrap (kt : typ) (ki : clos) : clos :=
    let ki := if negb (isString E kt) && negb (h_impl H kt MText) then KQuoted ki else ki in
    if h_impl H kt MText && is_ptr H kt then KNilText ki else ki.

  (** struct.go:64-71: cachedFields *)
  Definition cached_fields (t : typ) : prog (list field) :=
    PLoadFields t (fun r =>
      match r with
      | Some fs => PRet fs
      | None => PStructFields t (fun fs => PLoadOrStoreFields t fs PRet)
      end).

  (** types.go:90-97: cachedEmptyFuncOf; the function is named by its type. *)
  Definition cached_empty (t : typ) : prog typ :=
    PLoadEmpty t (fun r => match r with Some e => PRet e | None => PLoadOrStoreEmpty t t PRet end).

  (** instruction.go:297-321: the loop of newStructFieldsInstr *)
  Fixpoint fields_build (t : typ) (ca : bool) (fs : list field) : prog (list (cmeta * clos)) :=
    match fs with
    | [] => PRet []
    | f :: fs' =>
      match type_by_index H t (f_index f) with
      | None => PPanic
      | Some ftyp =>
        let etyp := match under E ftyp with TPtr e => e | _ => ftyp end in
        PBuild ftyp ca (f_quoted f && isBasicType E etyp) (fun c =>
          pbind (if f_omitEmpty f then pbind (cached_empty ftyp) (fun e => PRet (Some e)) else PRet None) (fun e =>
          pbind (fields_build t ca fs') (fun cs =>
          PRet ((mkCM (f_name f) (f_seq f) (f_omitNil f && isNilable E ftyp)
                   (f_omitNil f && (h_impl H ftyp MJson || h_impl H (TPtr ftyp) MJson)) e, c) :: cs))))
      end
    end.

  (** instruction.go:286-324: newStructFieldsInstr *)
  Definition struct_fields_build (t : typ) (ca : bool) : prog (list (cmeta * clos)) :=
    match fields_of H t with
    | [] => PRet []
    | _ => pbind (cached_fields t) (fields_build t ca)
    end.

  (** instruction.go:251-284: newStructInstr.  [PLoadOrStoreStruct] answers
      [None] when it stored the placeholder. *)
  Definition struct_build (t : typ) (ca : bool) : prog clos :=
    PLoadStruct t ca (fun r =>
      match r with
      | Some c => PRet c
      | None =>
        PLoadOrStoreStruct t ca (fun r =>
          match r with
          | Some c => PRet c
          | None =>
            pbind (struct_fields_build t ca) (fun fs =>
            PSetIns t ca fs (PDone t ca (PStoreStruct t ca (KStruct fs) (PRet (KStruct fs)))))
          end)
      end).

  (** instruction.go:85-115: newInstruction *)
  Definition build_body (t : typ) (ca q : bool) : prog clos :=
    match go_type_instr t with
    | Some i => PRet (KLeaf i)
    | None =>
      match marshaler_instr H t ca with
      | Some i => PRet (KLeaf i)
      | None =>
        match basic_instr H t q with
        | Some i => PRet (leaf_clos i)
        | None =>
          match under E t with
          | TIface _ => PRet (KLeaf IIface)
          | TStruct _ => struct_build t ca
          | TMap kt et =>
            if negb (key_ok H kt) then PRet (KLeaf (IUnsupp t))
            else
              pbind (if isString E kt then PRet (KLeaf IString) else PBuild kt false false PRet) (fun ki =>
              PBuild et false false (fun vi => PRet (KMap (ckey_wrap kt ki) vi)))
          | TSlice e =>
            if byte_elem H e then PRet (KLeaf IByteSlice)
            else PBuild e true false (fun c => PRet (KSlice c (h_size H e)))
          | TArray n e => PBuild e ca false (fun c => PRet (KArray c (h_size H e) n (byte_elem H e)))
          | TPtr e => PBuild e true q (fun c => PRet (KPtr c))
          | _ => PRet (KLeaf (IUnsupp t))
          end
        end
      end
    end.

  (** instruction.go:33-80: cachedInstr, loadInstr and storeInstr *)
  Definition cached_prog (t : typ) : prog clos :=
    PLoadCache (fun c =>
      match lookup_typ c t with
      | Some i => PRet i
      | None =>
        PBuild t (is_ptr H t) false (fun i =>
        PInlined t (fun b =>
        let i := if b then KInline i else i in
        PLoadCache (fun c => PStoreCache ((t, i) :: c) (PRet i))))
      end).

  (** ** Running instructions *)
  Section Run.
    Variable o : encOpts.
    Variable m : mem.

    (** json.go:185-192: appendJSON *)
    Definition any_prog (t : typ) (w : Z) (s : slice) : prog sres := pbind (cached_prog t) (fun c => PRun o m c (LMem w) s PRet).

    Definition leaf_res (r : res) (s : slice) : prog sres :=
      match r with Ret b err => PWrites s b (fun s => PRet (s, err)) | _ => PPanic end.

    (** buffer.go:17-27: cachedBuffer *)
    Definition get_buf {A} (k : slice -> prog A) : prog A :=
      PGetBuf (fun r => match r with Some b => k (mkSl (s_arr b) 0) | None => PMake 4096 (fun b => k (mkSl (s_arr b) 0)) end).

    (** map.go:25-31: releaseMapElems *)
    Definition release_mel {A} (mel : list kvsub) (k : prog A) : prog A := PPutMel (firstn 0 mel) k.

    (** encode.go:283-305: encodeByteSlice.  The slice expression
        dst[len(dst):end] panics beyond the capacity, Encode beyond its
        destination. *)
    Definition byte_slice_prog (v : option bytes) (s : slice) : prog sres :=
      match v with
      | None => emit s l_null
      | Some b =>
        PAppend s [34] (fun s =>
        if has (o_flags o) rawByteSlice then PWrites s (appendEscapedBytes [] b o) (fun s => emit s [34])
        else
          let n := Z.to_nat (b64_len (Z.of_nat (length b))) in
          PCap s (fun cap =>
          let write s :=
            let fin := (s_len s + n)%nat in
            PCap s (fun cap =>
            if (cap <? fin)%nat || (n <? length (base64 b))%nat then PPanic
            else PWrite (mkSl (s_arr s) fin) (s_len s) (base64 b) (emit (mkSl (s_arr s) fin) [34])) in
          if (cap - s_len s <? n)%nat then
            PMake (cap + (n - (cap - s_len s))) (fun new => PCopy new s (write (mkSl (s_arr new) (s_len s))))
          else write s))
      end.

    (** encode.go:679-729: the methods.  A method that appends does so in
        any number of pieces; it may move the slice and may leave anything after
        the length of dst. *)
    Definition call_prog (k : mkind) (t td : typ) (w : loc) (s : slice) : prog sres :=
      match k with
      | MCtx | MApp =>
        match h_call H k td w m (match k with MCtx => o_ctx o | _ => None end) [] with
        | Some (inl b) => PWrites s b ok_s
        | Some (inr e) => PSpoil s (PRet (s, Some (EMarshaler t k (IUser e))))
        | None => PPanic
        end
      | MJson => match h_call H k td w m None [] with Some r => leaf_res (encode_json_result t r [] o) s | None => PPanic end
      | MText => match h_call H k td w m None [] with Some r => leaf_res (encode_text_result t r [] o) s | None => PPanic end
      end.

    (** encode.go:631-677: encodeMarshaler *)
    Definition marshaler_prog (k : mkind) (t : typ) (hasPtr : bool) (p : loc) (s : slice) : prog sres :=
      if hasPtr then
        match p with
        | LMem 0 => emit s l_null
        | _ => call_prog k (TPtr t) (TPtr t) p s
        end
      else
        match under E t with
        | TPtr _ =>
          match rd_word m p with
          | Some WNil => emit s l_null
          | Some (WPtr a) => call_prog k t t (LMem a) s
          | _ => PPanic
          end
        | TIface ms =>
          match (match ms with None => rd_eface m p | Some _ => rd_iface m p end) with
          | Some None => emit s l_null
          | Some (Some (td, w)) => call_prog k t td (LMem w) s
          | None => PPanic
          end
        | _ => call_prog k t t p s
        end.

    (** encode.go:201-259: the loop of encodeStruct *)
    Fixpoint fields_prog (fs : list (cmeta * clos)) (p : loc) (first : bool) (s : slice) : prog sres :=
      match fs with
      | [] => emit s (if first then [123; 125] else [125])
      | (f, c) :: fs' =>
        if isDeniedField o (cm_name f) then fields_prog fs' p first s
        else match follow m (cm_seq f) p with
          | None => PPanic
          | Some None => fields_prog fs' p first s
          | Some (Some fp) =>
            match (if cm_omitNil f then is_nil m fp else Some false) with
            | None => PPanic
            | Some true => fields_prog fs' p first s
            | Some false =>
              match (match cm_empty f with Some t => is_empty H m t fp | None => Some false end) with
              | None => PPanic
              | Some true => fields_prog fs' p first s
              | Some false =>
                let key := if has (o_flags o) noHTMLEscaping then key_raw (cm_name f) else key_esc (cm_name f) in
                let last := if first then S (s_len s) else s_len s in
                PAppend s [if first then 123 else 44] (fun s =>
                PAppend s key (fun s =>
                PRun o m c fp s (fun r =>
                  match r with
                  | (s, Some e) => PRet (s, Some e)
                  | (s, None) =>
                    if cm_omitNull f then PRead s (fun d => fields_prog fs' p false (if ends_null d then mkSl (s_arr s) last else s))
                    else fields_prog fs' p false s
                  end)))
              end
            end
          end
      end.

    (** encode.go:316-327: the loop of encodeArray *)
    Fixpoint elems_prog (c : clos) (es : Z) (p : loc) (n : nat) (i : Z) (s : slice) : prog sres :=
      match n with
      | O => emit s (if i =? 0 then [91; 93] else [93])
      | S n' =>
        PAppend s [if i =? 0 then 91 else 44] (fun s =>
        thens (PRun o m c (ladd p (i * es)) s PRet) (elems_prog c es p n' (i + 1)))
      end.

    (** encode.go:307-347: encodeArray *)
    Definition array_prog (c : clos) (es : Z) (n : nat) (isba : bool) (p : loc) (s : slice) : prog sres :=
      if isba && has (o_flags o) byteArrayAsString then
        match p with
        | LMem a =>
          match rd_bytes m a n with
          | Some b => PAppend s [34] (fun s => PWrites s (appendEscapedBytes [] b o) (fun s => emit s [34]))
          | None => PPanic
          end
        | LTmp _ _ => match n with O => emit s [34; 34] | _ => PPanic end
        end
      else elems_prog c es p n 0 s.

    Definition entry_prog : Type := (slice -> prog sres) * (slice -> prog sres).

    (** encode.go:392-408 and 511-528 *)
    Fixpoint unsorted_prog (es : list entry_prog) (first : bool) (s : slice) : prog sres :=
      match es with
      | [] => ok_s s
      | (ke, ve) :: es' =>
        let go s := thens (ke s) (fun s => PAppend s [58] (fun s => thens (ve s) (unsorted_prog es' false))) in
        if first then go s else PAppend s [44] go
      end.

    (** encode.go:428-451 and 545-570 *)
    Fixpoint fill_prog (es : list entry_prog) (off : nat) (buf : slice) (mel : list kvsub) : prog (slice * list kvsub * option gerr) :=
      match es with
      | [] => PRet (buf, mel, None)
      | (ke, ve) :: es' =>
        pbind (ke buf) (fun r =>
          match r with
          | (buf, Some e) => PRet (buf, mel, Some e)
          | (buf, None) =>
            if (s_len buf <? off + 2)%nat then PPanic
            else
              let key := mkSub (s_arr buf) (off + 1) (s_len buf - 1) in
              PAppend buf [58] (fun buf =>
              pbind (ve buf) (fun r =>
                match r with
                | (buf, Some e) => PRet (buf, mel, Some e)
                | (buf, None) => fill_prog es' (s_len buf) buf (mel ++ [(key, mkSub (s_arr buf) off (s_len buf))])
                end))
          end)
      end.

    (** encode.go:459-464 and 578-583 *)
    Fixpoint join_prog (kvs : list kvsub) (first : bool) (s : slice) : prog slice :=
      match kvs with
      | [] => PRet s
      | (_, kv) :: kvs' =>
        if first then PAppendSub s kv (join_prog kvs' false)
        else PAppend s [44] (fun s => PAppendSub s kv (join_prog kvs' false))
      end.

    (** encode.go:414-474 and 533-589: encodeSortedMap, encodeSortedSyncMap *)
    Definition sorted_prog (es : list entry_prog) (dst : slice) : prog sres :=
      get_buf (fun buf =>
      PGetMel (fun r =>
      let mel := match r with Some l => l | None => [] end in
      pbind (fill_prog es 0 buf mel) (fun r =>
        match r with
        | (buf, mel, None) =>
          PSort mel (fun mel =>
          pbind (join_prog mel true dst) (fun dst =>
          release_mel mel (PPutBuf buf (PRet (dst, None)))))
        | (buf, mel, Some e) => release_mel mel (PPutBuf buf (PRet (dst, Some e)))
        end))).

    Definition entries_prog (es : list entry_prog) (s : slice) : prog sres :=
      if has (o_flags o) unsortedMap then unsorted_prog es true s else sorted_prog es s.

    (** map_1.17.go and map_1.18.go: newHiter.  mapiterinit needs a zeroed
        iterator. *)
    Definition zero_hiter : hiter := [].
    Definition iter_init (it : hiter) (es : list (Z * Z)) : option hiter := match it with [] => Some es | _ => None end.
    Definition new_hiter (es : list (Z * Z)) (k : hiter -> prog sres) : prog sres :=
      PGetIter (fun r =>
        match r with
        | None => k es
        | Some it => let it := zero_hiter in match iter_init it es with Some it => k it | None => PPanic end
        end).

    (** encode.go:591-629: appendSyncMapKey *)
    Definition sync_key_prog (k : eface) (s : slice) : prog sres :=
      match k with
      | None => PRet (s, Some ENilKey)
      | Some (kt, w) =>
        let isStr := isString E kt in
        let isInt := isInteger E kt in
        let isTxt := h_impl H kt MText in
        if negb isStr && negb isInt && negb isTxt then PRet (s, Some (EKeyType kt))
        else
          let quoted := negb isStr && negb isTxt in
          if isStr then match rd_string m (LMem w) with Some b => PWrites s (encode_string [] b o) ok_s | None => PPanic end
          else if quoted then PAppend s [34] (fun s => thens (any_prog kt w s) (fun s => emit s [34]))
          else any_prog kt w s
      end.
    Definition sync_val_prog (v : eface) (s : slice) : prog sres :=
      match v with
      | None => PPanic
      | Some (vt, w) => any_prog vt w s
      end.

    Definition run_body (c : clos) (p : loc) (s : slice) : prog sres :=
      match c with
      | KLeaf IIface =>
        match rd_eface m p with
        | None => PPanic
        | Some None => emit s l_null
        | Some (Some (t, w)) => any_prog t w s
        end
      | KLeaf ISyncMap =>
        match rd m p with
        | Some (CSync es) =>
          PAppend s [123] (fun s =>
          thens (entries_prog (map (fun kv => (sync_key_prog (fst kv), sync_val_prog (snd kv))) es) s) (fun s => emit s [125]))
        | _ => PPanic
        end
      | KLeaf IByteSlice => match rd_byte_slice m p with Some v => byte_slice_prog v s | None => PPanic end
      | KLeaf (IMarshaler k t hp) => marshaler_prog k t hp p s
      | KLeaf i => leaf_res (exec H o m 1 i p []) s
      | KPtr c =>
        match rd_word m p with
        | Some WNil => emit s l_null
        | Some (WPtr a) => PRun o m c (LMem a) s PRet
        | _ => PPanic
        end
      | KArray c es n isba => array_prog c es n isba p s
      | KSlice c es =>
        match rd_header m p with
        | Some (a, n) =>
          if a =? 0 then emit s (if has (o_flags o) nilSliceEmpty then [91; 93] else l_null)
          else if n =? 0 then emit s [91; 93]
          else array_prog c es (Z.to_nat n) false (LMem a) s
        | None => PPanic
        end
      | KMap kc vc =>
        match rd_word m p with
        | Some WNil => emit s (if has (o_flags o) nilMapEmpty then [123; 125] else l_null)
        | Some (WPtr a) =>
          match m a with
          | Some (CMap es) =>
            if (length es =? 0)%nat then emit s [123; 125]
            else
              PAppend s [123] (fun s =>
              new_hiter es (fun it =>
              pbind (entries_prog (map (fun kv => ((fun s => PRun o m kc (LMem (fst kv)) s PRet), (fun s => PRun o m vc (LMem (snd kv)) s PRet))) it) s) (fun r =>
              PPutIter it (match r with (s, None) => emit s [125] | (s, Some e) => PRet (s, Some e) end))))
          | _ => PPanic
          end
        | _ => PPanic
        end
      | KInline c => match p with LMem w => PRun o m c (LTmp w 0) s PRet | LTmp _ _ => PPanic end
      | KQuoted c => PAppend s [34] (fun s => thens (PRun o m c p s PRet) (fun s => emit s [34]))
      | KNilText c =>
        match is_nil m p with
        | Some true => emit s [34; 34]
        | Some false => PRun o m c p s PRet
        | None => PPanic
        end
      | KStruct fs => fields_prog fs p true s
      | KWait t ca => PWait t ca (fun fs => fields_prog fs p true s)
      end.
  End Run.

  (** ** Calls *)
  Definition cres : Type := option slice * option gerr.
  (** json.go:162-183: marshalJSON *)
  Definition marshal_prog (o : encOpts) (m : mem) (v : typ * Z) : prog cres :=
    pbind (cached_prog (fst v)) (fun c =>
    get_buf (fun buf =>
    PRun o m c (LMem (snd v)) buf (fun r =>
      match r with
      | (buf, None) => PMake (s_len buf) (fun b => PCopy b buf (PPutBuf buf (PRet (Some b, None))))
      | (buf, Some e) => PPutBuf buf (PRet (None, Some e))
      end))).
  Definition append_prog (o : encOpts) (m : mem) (v : typ * Z) (s : slice) : prog cres :=
    pbind (any_prog o m (fst v) (snd v) s) (fun r => PRet (Some (fst r), snd r)).

  Inductive gcall :=
  | GMarshal (m : mem) (v : eface) (opts : list (option option_))
  | GAppend (m : mem) (dst : slice) (d : bytes) (v : eface) (opts : list (option option_)).

  (** json.go:111-160: MarshalOpts and AppendOpts; Marshal and Append are the
      calls without options.  [d] is the content of dst when the call starts. *)
  Definition call_of (c : gcall) : prog cres :=
    match c with
    | GMarshal m v opts =>
      match v with
      | None => PMake 4 (fun s => PWrite s 0 l_null (PRet (Some s, None)))
      | Some v => match check_opts opts with inl o => marshal_prog o m v | inr e => PRet (None, Some (EInvalidOption e)) end
      end
    | GAppend m s _ v opts =>
      match v with
      | None => PAppend s l_null (fun s => PRet (Some s, None))
      | Some v => match check_opts opts with inl o => append_prog o m v s | inr e => PRet (None, Some (EInvalidOption e)) end
      end
    end.

  (** ** The machine *)
  Record hole := mkHole { ho_ins : option (list (cmeta * clos)); ho_done : bool }.
  Record shared := mkSh {
    sh_heap : nat -> bytes; sh_next : nat;
    sh_pool : list slice; sh_mels : list (list kvsub); sh_iters : list hiter;
    sh_icache : list (typ * clos);
    sh_scache : list (typ * bool * clos); sh_holes : list (typ * bool * hole);
    sh_fcache : list (typ * list field); sh_ecache : list (typ * typ)
  }.

  Definition set_arr (h : nat -> bytes) (a : nat) (c : bytes) : nat -> bytes := fun a' => if (a' =? a)%nat then c else h a'.
  Definition with_heap (S : shared) (h : nat -> bytes) (n : nat) : shared :=
    mkSh h n (sh_pool S) (sh_mels S) (sh_iters S) (sh_icache S) (sh_scache S) (sh_holes S) (sh_fcache S) (sh_ecache S).
  Definition with_arr (S : shared) (a : nat) (c : bytes) : shared := with_heap S (set_arr (sh_heap S) a c) (sh_next S).
  Definition with_new (S : shared) (c : bytes) : shared := with_heap S (set_arr (sh_heap S) (sh_next S) c) (Datatypes.S (sh_next S)).
  Definition with_pool (S : shared) (l : list slice) : shared :=
    mkSh (sh_heap S) (sh_next S) l (sh_mels S) (sh_iters S) (sh_icache S) (sh_scache S) (sh_holes S) (sh_fcache S) (sh_ecache S).
  Definition with_mels (S : shared) (l : list (list kvsub)) : shared :=
    mkSh (sh_heap S) (sh_next S) (sh_pool S) l (sh_iters S) (sh_icache S) (sh_scache S) (sh_holes S) (sh_fcache S) (sh_ecache S).
  Definition with_iters (S : shared) (l : list hiter) : shared :=
    mkSh (sh_heap S) (sh_next S) (sh_pool S) (sh_mels S) l (sh_icache S) (sh_scache S) (sh_holes S) (sh_fcache S) (sh_ecache S).
  Definition with_icache (S : shared) (l : list (typ * clos)) : shared :=
    mkSh (sh_heap S) (sh_next S) (sh_pool S) (sh_mels S) (sh_iters S) l (sh_scache S) (sh_holes S) (sh_fcache S) (sh_ecache S).
  Definition with_scache (S : shared) (l : list (typ * bool * clos)) : shared :=
    mkSh (sh_heap S) (sh_next S) (sh_pool S) (sh_mels S) (sh_iters S) (sh_icache S) l (sh_holes S) (sh_fcache S) (sh_ecache S).
  Definition with_holes (S : shared) (l : list (typ * bool * hole)) : shared :=
    mkSh (sh_heap S) (sh_next S) (sh_pool S) (sh_mels S) (sh_iters S) (sh_icache S) (sh_scache S) l (sh_fcache S) (sh_ecache S).
  Definition with_fcache (S : shared) (l : list (typ * list field)) : shared :=
    mkSh (sh_heap S) (sh_next S) (sh_pool S) (sh_mels S) (sh_iters S) (sh_icache S) (sh_scache S) (sh_holes S) l (sh_ecache S).
  Definition with_ecache (S : shared) (l : list (typ * typ)) : shared :=
    mkSh (sh_heap S) (sh_next S) (sh_pool S) (sh_mels S) (sh_iters S) (sh_icache S) (sh_scache S) (sh_holes S) (sh_fcache S) l.

  Definition overwrite (c : bytes) (i : nat) (b : bytes) : bytes := firstn i c ++ b ++ skipn (i + length b) c.
  Definition read_sub (h : nat -> bytes) (r : sub) : bytes := firstn (r_hi r - r_lo r) (skipn (r_lo r) (h (r_arr r))).
  Definition read_kv (h : nat -> bytes) (kv : kvsub) : bytes * bytes := (read_sub h (fst kv), read_sub h (snd kv)).

  (** append(s, b...): in place if the capacity allows, else in a new array of
      any larger capacity. *)
  Inductive append_to (S : shared) (s : slice) (b : bytes) : shared -> slice -> Prop :=
  | at_fits : (s_len s + length b <= length (sh_heap S (s_arr s)))%nat ->
      append_to S s b (with_arr S (s_arr s) (overwrite (sh_heap S (s_arr s)) (s_len s) b)) (mkSl (s_arr s) (s_len s + length b))
  | at_grow junk : (length (sh_heap S (s_arr s)) < s_len s + length b)%nat ->
      append_to S s b (with_new S (firstn (s_len s) (sh_heap S (s_arr s)) ++ b ++ junk)) (mkSl (sh_next S) (s_len s + length b)).

  (** What an action does. *)
  Inductive opstep (S : shared) : op -> shared -> answer -> Prop :=
  | t_append s b S' s' : append_to S s b S' s' -> opstep S (OAppend s b) S' (ASlice s')
  | t_append_sub s r S' s' : append_to S s (read_sub (sh_heap S) r) S' s' -> opstep S (OAppendSub s r) S' (ASlice s')
  | t_make n : opstep S (OMake n) (with_new S (repeat 0 n)) (ASlice (mkSl (sh_next S) n))
  | t_copy d s : opstep S (OCopy d s)
      (with_arr S (s_arr d) (overwrite (sh_heap S (s_arr d)) 0 (firstn (Nat.min (s_len d) (s_len s)) (sh_heap S (s_arr s))))) AUnit
  | t_write s i b : opstep S (OWrite s i b) (with_arr S (s_arr s) (overwrite (sh_heap S (s_arr s)) i b)) AUnit
  | t_cap s : opstep S (OCap s) S (ANat (length (sh_heap S (s_arr s))))
  | t_read s : opstep S (ORead s) S (ABytes (firstn (s_len s) (sh_heap S (s_arr s))))
  | t_spoil s junk : length (sh_heap S (s_arr s)) = (s_len s + length junk)%nat ->
      opstep S (OSpoil s) (with_arr S (s_arr s) (firstn (s_len s) (sh_heap S (s_arr s)) ++ junk)) AUnit
  | t_user_in s b junk : length (sh_heap S (s_arr s)) = (s_len s + length b + length junk)%nat ->
      opstep S (OUser s b) (with_arr S (s_arr s) (firstn (s_len s) (sh_heap S (s_arr s)) ++ b ++ junk)) (ASlice (mkSl (s_arr s) (s_len s + length b)))
  | t_user_new s b junk junk' : length (sh_heap S (s_arr s)) = (s_len s + length junk)%nat ->
      opstep S (OUser s b)
        (with_new (with_arr S (s_arr s) (firstn (s_len s) (sh_heap S (s_arr s)) ++ junk)) (firstn (s_len s) (sh_heap S (s_arr s)) ++ b ++ junk'))
        (ASlice (mkSl (sh_next S) (s_len s + length b)))
  | t_pieces b l : concat l = b -> opstep S (OPieces b) S (APieces l)
  | t_get_none : opstep S OGetBuf S (ASliceOpt None)
  | t_get_some l1 b l2 : sh_pool S = l1 ++ b :: l2 -> opstep S OGetBuf (with_pool S (l1 ++ l2)) (ASliceOpt (Some b))
  | t_put b : opstep S (OPutBuf b) (with_pool S (b :: sh_pool S)) AUnit
  | t_mel_none : opstep S OGetMel S (AMelOpt None)
  | t_mel_some l1 b l2 : sh_mels S = l1 ++ b :: l2 -> opstep S OGetMel (with_mels S (l1 ++ l2)) (AMelOpt (Some b))
  | t_mel_put b : opstep S (OPutMel b) (with_mels S (b :: sh_mels S)) AUnit
  | t_iter_none : opstep S OGetIter S (AIterOpt None)
  | t_iter_some l1 b l2 : sh_iters S = l1 ++ b :: l2 -> opstep S OGetIter (with_iters S (l1 ++ l2)) (AIterOpt (Some b))
  | t_iter_put b : opstep S (OPutIter b) (with_iters S (b :: sh_iters S)) AUnit
  | t_sort l l' : Permutation l l' -> map (read_kv (sh_heap S)) l' = h_sort H (map (read_kv (sh_heap S)) l) -> opstep S (OSort l) S (AMel l')
  | t_load_cache : opstep S OLoadCache S (ACache (sh_icache S))
  | t_store_cache c : opstep S (OStoreCache c) (with_icache S c) AUnit
  | t_load_struct t ca : opstep S (OLoadStruct t ca) S (AClosOpt (lookup_key (sh_scache S) (t, ca)))
  | t_los_loaded t ca c : lookup_key (sh_scache S) (t, ca) = Some c -> opstep S (OLoadOrStoreStruct t ca) S (AClosOpt (Some c))
  | t_los_stored t ca : lookup_key (sh_scache S) (t, ca) = None ->
      opstep S (OLoadOrStoreStruct t ca)
        (with_holes (with_scache S ((t, ca, KWait t ca) :: sh_scache S)) ((t, ca, mkHole None false) :: sh_holes S)) (AClosOpt None)
  | t_set_ins t ca fs d i : lookup_key (sh_holes S) (t, ca) = Some (mkHole i d) ->
      opstep S (OSetIns t ca fs) (with_holes S ((t, ca, mkHole (Some fs) d) :: sh_holes S)) AUnit
  | t_done t ca i d : lookup_key (sh_holes S) (t, ca) = Some (mkHole i d) ->
      opstep S (ODone t ca) (with_holes S ((t, ca, mkHole i true) :: sh_holes S)) AUnit
  | t_store_struct t ca c : opstep S (OStoreStruct t ca c) (with_scache S ((t, ca, c) :: sh_scache S)) AUnit
  | t_wait t ca fs : lookup_key (sh_holes S) (t, ca) = Some (mkHole (Some fs) true) -> opstep S (OWait t ca) S (AIns fs)
  | t_load_fields t : opstep S (OLoadFields t) S (AFieldsOpt (lookup_typ (sh_fcache S) t))
  | t_losf_loaded t fs fs' : lookup_typ (sh_fcache S) t = Some fs' -> opstep S (OLoadOrStoreFields t fs) S (AFields fs')
  | t_losf_stored t fs : lookup_typ (sh_fcache S) t = None -> opstep S (OLoadOrStoreFields t fs) (with_fcache S ((t, fs) :: sh_fcache S)) (AFields fs)
  | t_load_empty t : opstep S (OLoadEmpty t) S (ATypOpt (lookup_typ (sh_ecache S) t))
  | t_lose_loaded t e e' : lookup_typ (sh_ecache S) t = Some e' -> opstep S (OLoadOrStoreEmpty t e) S (ATyp e')
  | t_lose_stored t e : lookup_typ (sh_ecache S) t = None -> opstep S (OLoadOrStoreEmpty t e) (with_ecache S ((t, e) :: sh_ecache S)) (ATyp e)
  | t_struct_fields t n fs : structFields H n t = Some fs -> opstep S (OStructFields t) S (AFields fs)
  | t_inlined t n b : isInlined H n t = Some b -> opstep S (OInlined t) S (ABool b).

  (** One step of a goroutine. *)
  Inductive tstep {A} (S : shared) : prog A -> shared -> prog A -> Prop :=
  | t_op o k S' x : opstep S o S' x -> tstep S (POp o k) S' (k x)
  | t_build t ca q k : tstep S (PBuild t ca q k) S (pbind (build_body t ca q) k)
  | t_run o m c p s k : tstep S (PRun o m c p s k) S (pbind (run_body o m c p s) k).

  Inductive status := Running (p : prog cres) | Finished (r : cres) | Panicked.
  Record gst := mkG { g_sh : shared; g_user : list nat; g_thr : list (gcall * status) }.

  Inductive label := LTau | LWrite (a : nat) | LAppend (s : slice) | LFinish (i : nat) (c : gcall) (r : cres).

  Definition lent (c : gcall) : list nat := match c with GAppend _ s _ _ _ => [s_arr s] | _ => [] end.
  Definition returned (r : cres) : list nat := match fst r with Some s => [s_arr s] | None => [] end.
  Definition set_thr (l : list (gcall * status)) (i : nat) (x : gcall * status) : list (gcall * status) := firstn i l ++ x :: skipn (Datatypes.S i) l.

  (** The user allocates arrays, writes to the ones no call is using, and starts
      calls, in any order; the runtime may drop what is in the pools.  [starts]
      restricts the calls. *)
  Inductive gstep (starts : gcall -> Prop) (g : gst) : label -> gst -> Prop :=
  | g_alloc c : gstep starts g LTau (mkG (with_new (g_sh g) c) (sh_next (g_sh g) :: g_user g) (g_thr g))
  | g_write a c : In a (g_user g) -> length c = length (sh_heap (g_sh g) a) -> gstep starts g (LWrite a) (mkG (with_arr (g_sh g) a c) (g_user g) (g_thr g))
  | g_marshal m v opts : starts (GMarshal m v opts) -> gstep starts g LTau (mkG (g_sh g) (g_user g) (g_thr g ++ [(GMarshal m v opts, Running (call_of (GMarshal m v opts)))]))
  | g_append m s v opts d : starts (GAppend m s d v opts) -> In (s_arr s) (g_user g) ->
      (s_len s <= length (sh_heap (g_sh g) (s_arr s)))%nat -> d = firstn (s_len s) (sh_heap (g_sh g) (s_arr s)) ->
      gstep starts g (LAppend s) (mkG (g_sh g) (remove Nat.eq_dec (s_arr s) (g_user g)) (g_thr g ++ [(GAppend m s d v opts, Running (call_of (GAppend m s d v opts)))]))
  | g_act i c p S' p' : nth_error (g_thr g) i = Some (c, Running p) -> tstep (g_sh g) p S' p' -> gstep starts g LTau (mkG S' (g_user g) (set_thr (g_thr g) i (c, Running p')))
  | g_finish i c r : nth_error (g_thr g) i = Some (c, Running (PRet r)) ->
      gstep starts g (LFinish i c r) (mkG (g_sh g) (returned r ++ lent c ++ g_user g) (set_thr (g_thr g) i (c, Finished r)))
  | g_panic i c : nth_error (g_thr g) i = Some (c, Running PPanic) -> gstep starts g LTau (mkG (g_sh g) (lent c ++ g_user g) (set_thr (g_thr g) i (c, Panicked)))
  | g_drop_buf l1 b l2 : sh_pool (g_sh g) = l1 ++ b :: l2 -> gstep starts g LTau (mkG (with_pool (g_sh g) (l1 ++ l2)) (g_user g) (g_thr g))
  | g_drop_mel l1 b l2 : sh_mels (g_sh g) = l1 ++ b :: l2 -> gstep starts g LTau (mkG (with_mels (g_sh g) (l1 ++ l2)) (g_user g) (g_thr g))
  | g_drop_iter l1 b l2 : sh_iters (g_sh g) = l1 ++ b :: l2 -> gstep starts g LTau (mkG (with_iters (g_sh g) (l1 ++ l2)) (g_user g) (g_thr g)).

  Inductive gsteps (starts : gcall -> Prop) : gst -> list label -> gst -> Prop :=
  | gs_refl g : gsteps starts g [] g
  | gs_step g l g' ls g'' : gstep starts g l g' -> gsteps starts g' ls g'' -> gsteps starts g (l :: ls) g''.

  (** The state of a process that has not used the package. *)
  Definition g_init : gst := mkG (mkSh (fun _ => []) 0 [] [] [] [] [] [] [] []) [] [].
  Definition reachable (starts : gcall -> Prop) (g : gst) : Prop := exists ls, gsteps starts g_init ls g.
End Progs.
