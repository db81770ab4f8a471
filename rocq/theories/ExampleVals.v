(** Memory that holds a given string, integer, float, time or byte slice: every
    such value is the argument of some call. *)
From Verif Require Import Base IntModel IntProof JsonSpec OptionsModel TypesModel TypesFacts TagsModel TagsProof TimeModel FloatModel FloatProof
  LeafModel MemModel FieldsSpec FieldsModel FieldsProof FieldsThm InstrModel ExecModel ValueModel ExecMono ExecProof HostFacts VencFacts MarshalThm ExampleHost DocSpec ApiFacts.

(** One cell at address 100. *)
Definition cell_mem (c : cell) : mem := fun a => if a =? 100 then Some c else None.

(** Bytes from address 200 on; a header at 100. *)
Definition bytes_mem (s : bytes) : mem := fun a =>
  if a =? 100 then Some (CPtr 200)
  else if a =? 108 then Some (CInt KInt (Z.of_nat (length s)))
  else if 200 <=? a then match nth_error s (Z.to_nat (a - 200)) with Some b => Some (CInt KUint8 b) | None => None end
  else None.

Lemma bytes_mem_rd s : forall pre post, s = pre ++ post -> rd_bytes (bytes_mem s) (200 + Z.of_nat (length pre)) (length post) = Some post.
Proof.
  intros pre post. revert pre. induction post as [|b post IH]; intros pre Hs; [reflexivity|]. cbn [rd_bytes length].
  assert (Hb : rd_int (bytes_mem s) (LMem (200 + Z.of_nat (length pre))) KUint8 = Some b).
  { unfold rd_int. cbn [rd]. unfold bytes_mem.
    replace (200 + Z.of_nat (length pre) =? 100) with false by lia. replace (200 + Z.of_nat (length pre) =? 108) with false by lia.
    replace (200 <=? 200 + Z.of_nat (length pre)) with true by lia.
    replace (Z.to_nat (200 + Z.of_nat (length pre) - 200)) with (length pre) by lia. rewrite Hs, nth_error_app2, Nat.sub_diag by lia. reflexivity. }
  rewrite Hb. specialize (IH (pre ++ [b])). rewrite app_length, <- app_assoc in IH. cbn [length app] in IH.
  replace (200 + Z.of_nat (length pre) + 1) with (200 + Z.of_nat (length pre + 1)) by lia. rewrite IH by exact Hs. reflexivity.
Qed.

Lemma bytes_mem_header s : rd_header (bytes_mem s) (LMem 100) = Some (200, Z.of_nat (length s)).
Proof.
  unfold rd_header. cbn [rd ladd]. change (bytes_mem s 100) with (Some (CPtr 200)). unfold rd_int. cbn [rd].
  change (bytes_mem s (100 + 8)) with (Some (CInt KInt (Z.of_nat (length s)))). assert (Hl : (0 <=? Z.of_nat (length s)) = true) by lia. cbn match. rewrite Hl. reflexivity.
Qed.

Lemma bytes_mem_string s : rd_string (bytes_mem s) (LMem 100) = Some s.
Proof. unfold rd_string. rewrite bytes_mem_header, Nat2Z.id. exact (bytes_mem_rd s [] s eq_refl). Qed.

(** ** Values of this memory *)
Ltac not_direct := let D := fresh in intros D; inversion D; discriminate.

Lemma str_holds s : bytes_ok s -> holds exH (bytes_mem s) TString 100 (VStr s).
Proof.
  intros Hs. constructor; [exact I | reflexivity | not_direct|]. intros _. apply R_str; [reflexivity | apply bytes_mem_string | exact Hs].
Qed.

Lemma number_holds s : bytes_ok s -> holds exH (bytes_mem s) TNumber 100 (VStr s).
Proof.
  intros Hs. constructor; [exact I | reflexivity | not_direct|]. intros _. apply R_str; [reflexivity | apply bytes_mem_string | exact Hs].
Qed.

Lemma int_holds k n : int_range k n -> holds exH (cell_mem (CInt k n)) (TInt k) 100 (VInt n).
Proof.
  intros Hr. constructor; [exact I | reflexivity | not_direct|]. intros _. apply R_int with k; [reflexivity | destruct k; reflexivity | exact Hr].
Qed.

Lemma float_holds b f : holds exH (cell_mem (CFloat b f)) (TFloat b) 100 (VFloat f).
Proof.
  constructor; [exact I | reflexivity | not_direct|]. intros _. apply R_float with b; reflexivity.
Qed.

Lemma time_holds g : gtime_ok g -> holds exH (cell_mem (CTime g)) TTime 100 (VTime g).
Proof.
  intros Hg. constructor; [exact I | reflexivity | not_direct|]. intros _. apply R_time; [reflexivity | exact Hg].
Qed.

Lemma duration_holds d : int_range KInt64 d -> holds exH (cell_mem (CInt KInt64 d)) TDuration 100 (VInt d).
Proof.
  intros Hr. constructor; [exact I | reflexivity | not_direct|]. intros _. apply R_int with KInt64; [reflexivity | reflexivity | exact Hr].
Qed.

Lemma bytes_elems s i v : bytes_ok s -> nth_error (map VInt s) i = Some v -> repr exH (bytes_mem s) (LMem (200 + Z.of_nat i * 1)) (TInt KUint8) v.
Proof.
  intros Hs Hv. rewrite nth_error_map in Hv. destruct (nth_error s i) as [b|] eqn:Eb; [|discriminate]. injection Hv as <-.
  apply R_int with KUint8; [reflexivity | |].
  - unfold rd_int. cbn [rd]. unfold bytes_mem. replace (200 + Z.of_nat i * 1 =? 100) with false by lia. replace (200 + Z.of_nat i * 1 =? 108) with false by lia.
    replace (200 <=? 200 + Z.of_nat i * 1) with true by lia. replace (Z.to_nat (200 + Z.of_nat i * 1 - 200)) with i by lia. rewrite Eb. reflexivity.
  - apply nth_error_In in Eb. unfold bytes_ok in Hs. rewrite Forall_forall in Hs. exact (Hs b Eb).
Qed.

Lemma byte_slice_holds s : bytes_ok s -> holds exH (bytes_mem s) (TSlice (TInt KUint8)) 100 (VSlice (map VInt s)).
Proof.
  intros Hs. constructor; [exact I | reflexivity | not_direct|]. intros _. apply R_slice with (TInt KUint8) 200; [reflexivity | | lia |].
  - rewrite map_length. apply bytes_mem_header.
  - intros i v Hv. apply bytes_elems; assumption.
Qed.

Lemma raw_holds s : bytes_ok s -> holds exH (bytes_mem s) TRawMessage 100 (VSlice (map VInt s)).
Proof.
  intros Hs. constructor; [exact I | reflexivity | not_direct|]. intros _. apply R_slice with (TInt KUint8) 200; [reflexivity | | lia |].
  - rewrite map_length. apply bytes_mem_header.
  - intros i v Hv. apply bytes_elems; assumption.
Qed.

Lemma byte_array_holds s : bytes_ok s -> holds exH (bytes_mem s) (TArray (length s) (TInt KUint8)) 200 (VArr (map VInt s)).
Proof.
  intros Hs. constructor; [exact I | reflexivity | |].
  - intros D. exfalso. inversion D as [| | | | | |? u U Hu]; try discriminate. cbn in U. injection U as Hl <-. inversion Hu; discriminate.
  - intros _. apply R_arr with (length s) (TInt KUint8); [reflexivity | apply map_length |]. intros i v Hv. apply bytes_elems; assumption.
Qed.

Lemma vbytes_map s : vbytes (map VInt s) = Some s.
Proof. induction s as [|b s IH]; [reflexivity|]. cbn. rewrite IH. reflexivity. Qed.
