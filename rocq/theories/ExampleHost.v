(** A concrete program used to show that hypotheses can be met: its type
    declarations, a method, and memory holding values.

      type Node struct {
          Val   int                `json:"val"`
          Next  *Node              `json:"next,omitempty"`
          Extra interface{}        `json:"extra"`
          M     map[string]Celsius `json:"m,omitempty"`
      }
      type Celsius int
      func (c Celsius) MarshalJSON() ([]byte, error)   // the integer in decimal
*)
From Coq Require Import Wf_nat Permutation.
From Verif Require Import Base IntModel IntProof JsonSpec NumberProof OptionsModel TypesModel TypesFacts TagsModel TagsProof TimeModel FloatModel FloatProof
  LeafModel MemModel FieldsSpec FieldsModel FieldsProof FieldsThm InstrModel ExecModel ValueModel ExecMono ExecProof HostFacts VencFacts MarshalThm.

Definition fld (name : string) (tag : string) (t : typ) : fdecl * typ := (mkFD (lit name) false false (lit tag), t).

Definition Node : typ := TNamed 0.
Definition Celsius : typ := TNamed 1.
Definition ex_env : tenv := fun n =>
  match n with
  | 0%nat => TStruct [fld "Val" "val" (TInt KInt); fld "Next" "next,omitempty" (TPtr (TNamed 0));
                      fld "Extra" "extra" (TIface None); fld "M" "m,omitempty" (TMap TString (TNamed 1))]
  | 1%nat => TInt KInt
  | _ => TBool
  end.

(** Sizes and offsets, without padding. *)
Fixpoint ex_size (t : typ) : Z :=
  match t with
  | TInt KUint8 => 1
  | TString | TIface _ => 16
  | TSlice _ | TTime | TRawMessage => 24
  | TNumber => 16
  | TArray n e => Z.of_nat n * ex_size e
  | TStruct fs => (fix go (l : list (fdecl * typ)) := match l with [] => 0 | (_, u) :: l' => ex_size u + go l' end) fs
  | TNamed 0 => 40
  | _ => 8
  end.
Fixpoint ex_off (fs : list (fdecl * typ)) (i : nat) : Z :=
  match i, fs with
  | S j, (_, u) :: fs' => ex_size u + ex_off fs' j
  | _, _ => 0
  end.

(** Celsius has a value-receiver MarshalJSON, so *Celsius has it too; the
    standard library's methods of the types with a native encoding. *)
Definition ex_impl (t : typ) (k : mkind) : bool :=
  match t, k with
  | TNamed 1, MJson | TPtr (TNamed 1), MJson => true
  | TTime, (MJson | MText) | TPtr TTime, (MJson | MText) => true
  | TRawMessage, MJson | TPtr TRawMessage, MJson => true
  | _, _ => false
  end.

(** The methods, on values and on memory.  Those of the standard library are
    left constant. *)
Definition ex_vcall (k : mkind) (td : typ) (v : val) (ctx : option Z) : bytes + Z :=
  match td, v with
  | TNamed 1, VInt n => inl (append_int [] n)
  | TPtr (TNamed 1), VPtr (VInt n) => inl (append_int [] n)
  | _, _ => inl l_null
  end.
Definition ex_call (k : mkind) (td : typ) (w : loc) (m : mem) (ctx : option Z) (dst : bytes) : option (bytes + Z) :=
  let text :=
    match td with
    | TNamed 1 => match rd_int m w KInt with Some n => append_int [] n | None => l_null end
    | TPtr (TNamed 1) =>
      if match w with LMem 0 => true | _ => false end then l_null
      else match rd_int m w KInt with Some n => append_int [] n | None => l_null end
    | _ => l_null
    end in
  Some (inl match k with MCtx | MApp => dst ++ text | _ => text end).

Definition ascii_letter (r : Z) : bool := (65 <=? r) && (r <=? 90) || (97 <=? r) && (r <=? 122).
Definition ascii_digit (r : Z) : bool := (48 <=? r) && (r <=? 57).

(** sort.Sort by key: insertion sort. *)
Fixpoint insert_kv (x : bytes * bytes) (l : list (bytes * bytes)) : list (bytes * bytes) :=
  match l with
  | [] => [x]
  | y :: l' => if bytes_ltb (fst x) (fst y) then x :: l else y :: insert_kv x l'
  end.
Fixpoint sort_kvs (l : list (bytes * bytes)) : list (bytes * bytes) :=
  match l with [] => [] | x :: l' => insert_kv x (sort_kvs l') end.

Definition exH : host := mkHost ex_env ex_off ex_size ex_impl ex_call ascii_letter ascii_digit
  (fun _ layout => layout) (fun _ _ => FZero false) (fun _ _ _ => ([49], 1)) sort_kvs.

Lemma ex_size_pos : forall t, 0 <= ex_size t.
Proof.
  induction t using typ_ind'; cbn [ex_size]; try lia.
  - destruct k; lia.
  - induction H as [|[d u] fs Hu _ IH]; [lia|]. cbn [snd] in Hu. lia.
  - destruct n; lia.
Qed.

Lemma ex_ok : host_ok exH ex_vcall.
Proof.
  apply host_ok_intro.
  - constructor.
    + split; [reflexivity|]. split; [reflexivity|]. cbn. unfold ascii_letter, ascii_digit. intros r. lia.
    + intros [|[|n]]; reflexivity.
    + assert (Hid : forall s, s <> [] -> forallb (fun c => (c =? 95) || (48 <=? c) && (c <=? 57) || (65 <=? c) && (c <=? 90) || (97 <=? c) && (c <=? 122)) s = true ->
        ident ascii_letter ascii_digit s).
      { intros s Hs Hf. apply ident_ascii; [exact Hs|]. apply Forall_forall. rewrite forallb_forall in Hf. intros c Hc. specialize (Hf c Hc). lia. }
      intros [|[|n]]; try exact I. cbn [ex_env h_env exH]. apply typ_ok_struct. unfold fld.
      assert (Hb : forall t, bytes_ok (lit t)) by (intros t; unfold lit; apply Forall_forall; intros c Hc; apply in_map_iff in Hc; destruct Hc as (x & <- & _); unfold is_byte; assert (Ascii.N_of_ascii x < 256)%N by apply Ascii.N_ascii_bounded; lia).
      assert (Hf : forall d u fs (P : fdecl * typ -> Prop), P (d, u) -> Forall P fs -> Forall P ((d, u) :: fs)) by (intros; constructor; assumption).
      repeat (apply Hf); try apply Forall_nil; cbn [fst snd fd_tag fd_name]; (split; [apply Hb|]; split; [apply Hid; [discriminate | reflexivity] | cbn; auto]).
  - intros b. constructor. intros a Ha. exfalso. cbn [h_env exH] in Ha. destruct b as [|[|b]]; cbn in Ha; inversion Ha.
  - assert (No : forall a b, ~ inside a (ex_env b)).
    { intros a [|[|b]] Ha; cbn [ex_env] in Ha; inversion Ha as [| |fs d u Hi Hu E]; subst. unfold fld in Hi. cbn [In] in Hi.
      destruct Hi as [E|[E|[E|[E|[]]]]]; injection E as <- <-; inversion Hu. }
    intros b. constructor. intros a Ha. destruct (No _ _ Ha).
  - exists 2%nat. intros [|[|n]] a Ha; cbn in Ha; lia.
  - intros t Ht. cbn in Ht. destruct t; cbn in Ht; try discriminate; [injection Ht as ->; reflexivity|]. destruct n as [|[|n]]; discriminate.
  - apply ex_size_pos.
  - cbn. intros fs. induction fs as [|[d u] fs IH]; intros [|i]; cbn [ex_off]; try lia. assert (A := ex_size_pos u). specialize (IH i). lia.
  - intros k td wl m v ctx dst Hw. cbn [h_call exH]. unfold ex_call, ex_vcall.
    assert (Hc : forall text text' : bytes, text = text' -> Some (inl match k with MCtx | MApp => dst ++ text | _ => text end) =
      Some (inl match k with MCtx | MApp => dst ++ text' | _ => text' end) :> option (bytes + Z)) by (intros; subst; reflexivity).
    destruct td as [| | | | | | | | |e| | | | |n| | | | |]; try (apply Hc; reflexivity).
    + destruct e as [| | | | | | | | | | | | | |n| | | | |]; try (apply Hc; reflexivity). destruct n as [|[|n]]; try (apply Hc; reflexivity).
      destruct Hw as [[Hd _]|(Hd & w & -> & Hr)]; [exfalso; apply Hd; eapply d_ptr; reflexivity|].
      destruct v; try (inversion Hr; discriminate).
      * apply inv_nil in Hr. destruct Hr as (_ & _ & Hr & _). cbn in Hr. injection Hr as ->. apply Hc. reflexivity.
      * destruct (inv_ptr _ _ _ _ _ Hr) as (e0 & a & Q1 & Q2 & Q3 & Q4). cbn in Q1, Q2. injection Q1 as <-. injection Q2 as ->.
        destruct a as [|a|a]; try lia. destruct v; try (inversion Q4; discriminate).
        destruct (inv_int _ _ _ _ _ Q4) as (k0 & Z1 & Z2 & _). cbn in Z1. injection Z1 as <-. cbn match. rewrite Z2. reflexivity.
    + destruct n as [|[|n]]; try (apply Hc; reflexivity).
      destruct Hw as [[Hd Hr]|(Hd & _)]; [|exfalso; inversion Hd; discriminate].
      destruct v; try (inversion Hr; discriminate).
      destruct (inv_int _ _ _ _ _ Hr) as (k0 & Z1 & Z2 & _). cbn in Z1. injection Z1 as <-. rewrite Z2. reflexivity.
  - intros k td v ctx b Hb. assert (Hi : forall n, bytes_ok (append_int [] n)).
    { intros n. destruct (append_int_spec [] n) as (s & -> & Hs). cbn [app]. apply int_lit_jnumber, jnumber_chars in Hs. eapply Forall_impl; [|exact Hs]. unfold numchar, is_byte, digit. intros c. lia. }
    assert (Hn : bytes_ok l_null) by (repeat constructor; unfold is_byte; cbn; lia).
    unfold ex_vcall in Hb.
    repeat (match type of Hb with inl _ = inl _ => fail 1 | context [match ?x with _ => _ end] => destruct x end);
      injection Hb as <-; auto.
Qed.

(** ** Memory *)
Fixpoint lookup (l : list (Z * cell)) (a : Z) : option cell :=
  match l with [] => None | (b, c) :: l' => if a =? b then Some c else lookup l' a end.

(** &Node{7, &Node{Val: -1}, "hi", map[string]Celsius{"b": 20, "a": -5}} *)
Definition ex_mem : mem := lookup
  [(1000, CInt KInt 7); (1008, CPtr 2000); (1016, CType TString); (1024, CPtr 3000); (1032, CPtr 4000);
   (2000, CInt KInt (-1)); (2008, CPtr 0); (2016, CPtr 0); (2032, CPtr 0);
   (3000, CPtr 3100); (3008, CInt KInt 2); (3100, CInt KUint8 104); (3101, CInt KUint8 105);
   (4000, CMap [(4100, 4200); (4300, 4400)]);
   (4100, CPtr 4150); (4108, CInt KInt 1); (4150, CInt KUint8 98); (4200, CInt KInt 20);
   (4300, CPtr 4350); (4308, CInt KInt 1); (4350, CInt KUint8 97); (4400, CInt KInt (-5))].

Definition ex_val : val :=
  VStruct [VInt 7; VPtr (VStruct [VInt (-1); VNil; VNil; VNil]); VIface TString (VStr (lit "hi"));
           VMap [(VStr (lit "b"), VInt 20); (VStr (lit "a"), VInt (-5))]].

Lemma lit_bytes t : bytes_ok (lit t).
Proof.
  unfold lit. apply Forall_forall; intros c Hc; apply in_map_iff in Hc; destruct Hc as (x & <- & _).
  unfold is_byte; assert (Ascii.N_of_ascii x < 256)%N by apply Ascii.N_ascii_bounded; lia.
Qed.

Lemma ex_int a t k n : under ex_env t = TInt k -> ex_mem a = Some (CInt k n) -> int_range k n -> repr exH ex_mem (LMem a) t (VInt n).
Proof.
  intros Ht Hm Hr. apply R_int with k; [exact Ht | unfold rd_int; cbn [rd]; rewrite Hm; destruct k; reflexivity | exact Hr].
Qed.

Lemma ex_nil a t : isNilable ex_env t = true -> (forall e, under ex_env t <> TSlice e) -> ex_mem a = Some (CPtr 0) -> repr exH ex_mem (LMem a) t VNil.
Proof.
  intros Ht Hs Hm. apply R_nil; [|exact Ht|exact Hm|].
  - intros C. unfold isNilable in Ht. change (h_env exH) with ex_env in C. rewrite C in Ht. discriminate.
  - intros [e He]. destruct (Hs e He).
Qed.

Lemma ex_repr_node : repr exH ex_mem (LMem 1000) Node ex_val.
Proof.
  assert (Hn : repr exH ex_mem (LMem 2000) Node (VStruct [VInt (-1); VNil; VNil; VNil])).
  { eapply R_struct; try reflexivity; try discriminate. intros i d u v Hi Hv.
    destruct i as [|[|[|[|i]]]]; cbn in Hi, Hv; try (destruct i; discriminate); injection Hi as <- <-; injection Hv as <-.
    - eapply ex_int; try reflexivity. cbn. lia.
    - apply ex_nil; try reflexivity. discriminate.
    - apply ex_nil; try reflexivity. discriminate.
    - apply ex_nil; try reflexivity. discriminate. }
  eapply R_struct; try reflexivity; try discriminate. intros i d u v Hi Hv.
  destruct i as [|[|[|[|i]]]]; cbn in Hi, Hv; try (destruct i; discriminate); injection Hi as <- <-; injection Hv as <-.
  - eapply ex_int; try reflexivity. cbn. lia.
  - eapply R_ptr; try reflexivity; exact Hn.
  - eapply R_iface; try reflexivity.
    + intros D. inversion D; discriminate.
    + intros _. apply R_str; try reflexivity. exact (lit_bytes "hi").
  - eapply R_map; try reflexivity; try lia. intros i ka va kv vv Ha He.
    destruct i as [|[|i]]; cbn in Ha, He; try (destruct i; discriminate); injection Ha as <- <-; injection He as <- <-;
      (split; [apply R_str; try reflexivity; first [exact (lit_bytes "a") | exact (lit_bytes "b")] | eapply ex_int; try reflexivity; cbn; lia]).
Qed.

Lemma ex_repr : repr_any exH ex_mem (Some (Node, 1000)) (VIface Node ex_val).
Proof.
  constructor; [exact I | reflexivity | intros D; inversion D; discriminate | intros _; exact ex_repr_node].
Qed.

Definition ex_json : bytes := lit "{""val"":7,""next"":{""val"":-1,""extra"":null},""extra"":""hi"",""m"":{""a"":-5,""b"":20}}".

Example ex_marshal : marshal_returns exH ex_mem (Some (Node, 1000)) [] (MOk ex_json).
Proof. exists 30%nat. split; [vm_compute; reflexivity | discriminate]. Qed.

Example ex_encodes : encodes exH ex_vcall default_opts Node ex_val ex_json None.
Proof. exists 20%nat. vm_compute. reflexivity. Qed.
