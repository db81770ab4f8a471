(** What the loops of arrays and maps write, from what their elements give. *)
From Coq Require Import Permutation Sorted.
From Verif Require Import Base JsonSpec OptionsModel TypesModel MemModel InstrModel ExecModel ValueModel.

(** ** Arrays *)
Fixpoint join_elems (first : bool) (bs : list bytes) : bytes :=
  match bs with
  | [] => if first then [91; 93] else [93]
  | b :: bs' => (if first then 91 else 44) :: b ++ join_elems false bs'
  end.

Lemma velems_ret rec e ca vs : forall first out0 out, velems rec e ca vs first out0 = VRet out None <->
  exists bs, Forall2 (fun v b => rec e ca false v = VRet b None) vs bs /\ out = out0 ++ join_elems first bs.
Proof.
  induction vs as [|v vs IH]; intros first out0 out; cbn [velems].
  - split.
    + intros Hr. exists []. split; [constructor|]. destruct first; injection Hr as <-; reflexivity.
    + intros (bs & Hf & ->). inversion Hf; subst. destruct first; reflexivity.
  - unfold vthen. split.
    + destruct (rec e ca false v) as [b [err|]| |] eqn:Er; try discriminate. intros Hr. apply IH in Hr.
      destruct Hr as (bs & Hf & ->). exists (b :: bs). split; [constructor; assumption|]. cbn [join_elems]. rewrite <- !app_assoc. reflexivity.
    + intros (bs & Hf & ->). inversion Hf as [|? b ? bs' Hb Hf']; subst. rewrite Hb. apply IH. exists bs'. split; [assumption|].
      cbn [join_elems]. rewrite <- !app_assoc. reflexivity.
Qed.

(** An element that fails makes the array fail. *)
Lemma velems_err rec e ca vs : forall first out0 out err, velems rec e ca vs first out0 = VRet out (Some err) ->
  exists v b, In v vs /\ rec e ca false v = VRet b (Some err).
Proof.
  induction vs as [|v vs IH]; intros first out0 out err; cbn [velems]; [destruct first; discriminate|].
  unfold vthen. destruct (rec e ca false v) as [b [er|]| |] eqn:Er; try discriminate.
  - intros [= _ <-]. exists v, b. split; [left; reflexivity | exact Er].
  - intros Hr. apply IH in Hr. destruct Hr as (v' & b' & Hi & Hr). exists v', b'. split; [right; exact Hi | exact Hr].
Qed.

Lemma jelems_join lax js bs : Forall2 (json no_ws lax) js bs -> js <> [] ->
  exists s, jelems no_ws lax js s /\ join_elems true bs = 91 :: s ++ [93] /\ join_elems false bs = 44 :: s ++ [93].
Proof.
  induction 1 as [|j b js bs Hj Hf IH]; [congruence|]. intros _. destruct js as [|j' js].
  - inversion Hf; subst. exists b. split; [|split; reflexivity]. rewrite <- (app_nil_r b). apply (je_one no_ws lax [] j b []); [reflexivity | exact Hj | reflexivity].
  - destruct IH as (s & Hs & _ & E2); [discriminate|]. exists (b ++ 44 :: s). split.
    + apply (je_cons no_ws lax [] j b [] (j' :: js) s); [reflexivity | exact Hj | reflexivity | exact Hs].
    + cbn [join_elems]. rewrite E2. rewrite <- !app_assoc. split; reflexivity.
Qed.

Lemma json_join lax js bs : Forall2 (json no_ws lax) js bs -> json no_ws lax (JArr js) (join_elems true bs).
Proof.
  intros Hf. destruct js as [|j js]; [inversion Hf; subst; apply (j_arr0 no_ws lax []); reflexivity|].
  destruct (jelems_join lax (j :: js) bs Hf) as (s & Hs & -> & _); [discriminate|]. apply j_arr. exact Hs.
Qed.

(** ** Maps *)
Definition member : Type := bytes * bytes.
Definition member_text (kv : member) : bytes := fst kv ++ 58 :: snd kv.

Fixpoint join_members (kvs : list member) : bytes :=
  match kvs with
  | [] => []
  | [kv] => member_text kv
  | kv :: kvs' => member_text kv ++ 44 :: join_members kvs'
  end.

(** The bytes the sort compares: the encoded key without its first and last
    byte. *)
Definition sort_key (kb : bytes) : bytes := firstn (length kb - 2) (skipn 1 kb).

Definition gives (e : vres * vres) (kv : member) : Prop := fst e = VRet (fst kv) None /\ snd e = VRet (snd kv) None.

Definition tail_members (first : bool) (kvs : list member) : bytes :=
  match kvs with [] => [] | _ => (if first then [] else [44]) ++ join_members kvs end.

Lemma join_members_cons kv kvs : join_members (kv :: kvs) = member_text kv ++ tail_members false kvs.
Proof. destruct kvs; [cbn; rewrite app_nil_r; reflexivity | reflexivity]. Qed.

Lemma tail_members_true kvs : tail_members true kvs = join_members kvs.
Proof. destruct kvs; reflexivity. Qed.

Lemma vunsorted_ret es : forall first out0 out, vunsorted es first out0 = VRet out None <->
  exists kvs, Forall2 gives es kvs /\ out = out0 ++ tail_members first kvs.
Proof.
  induction es as [|[k v] es IH]; intros first out0 out; cbn [vunsorted].
  - split.
    + intros [= <-]. exists []. split; [constructor | rewrite app_nil_r; reflexivity].
    + intros (kvs & Hf & ->). inversion Hf; subst. cbn. rewrite app_nil_r. reflexivity.
  - unfold vthen. split.
    + destruct k as [kb [err|]| |]; try discriminate. destruct v as [vb [err|]| |]; try discriminate.
      intros Hr. apply IH in Hr. destruct Hr as (kvs & Hf & ->). exists ((kb, vb) :: kvs). split; [constructor; [split; reflexivity | exact Hf]|].
      unfold tail_members at 2. rewrite join_members_cons. unfold member_text. cbn [fst snd]. destruct first; rewrite <- !app_assoc; reflexivity.
    + intros (kvs & Hf & ->). inversion Hf as [|? [kb vb] ? kvs' [Hk Hv] Hf']; subst. cbn [fst snd] in Hk, Hv. rewrite Hk, Hv.
      apply IH. exists kvs'. split; [assumption|]. unfold tail_members at 1. rewrite join_members_cons. unfold member_text. cbn [fst snd]. destruct first; rewrite <- !app_assoc; reflexivity.
Qed.

(** What sort.Sort is given and returns for one member. *)
Definition sortable (kv : member) : bytes * bytes := (sort_key (fst kv), member_text kv).

Lemma vfill_ret es : forall acc r, vfill es acc = VFOk r <->
  exists kvs, Forall2 gives es kvs /\ Forall (fun kv => (2 <= length (fst kv))%nat) kvs /\ r = acc ++ map sortable kvs.
Proof.
  induction es as [|[k v] es IH]; intros acc r; cbn [vfill].
  - split.
    + intros [= <-]. exists []. split; [constructor|]. split; [constructor | rewrite app_nil_r; reflexivity].
    + intros (kvs & Hf & _ & ->). inversion Hf; subst. cbn. rewrite app_nil_r. reflexivity.
  - split.
    + destruct k as [kb [err|]| |]; try discriminate. destruct (length kb <? 2)%nat eqn:El; [discriminate|]. destruct v as [vb [err|]| |]; try discriminate.
      intros Hr. apply IH in Hr. destruct Hr as (kvs & Hf & Hl & ->). exists ((kb, vb) :: kvs). split; [constructor; [split; reflexivity | exact Hf]|].
      split; [constructor; [cbn; lia | exact Hl]|]. rewrite <- app_assoc. reflexivity.
    + intros (kvs & Hf & Hl & ->). inversion Hf as [|? [kb vb] ? kvs' [Hk Hv] Hf']; subst. cbn [fst snd] in Hk, Hv. subst.
      inversion Hl as [|? ? Hl1 Hl2]; subst. cbn [fst] in Hl1. replace (length kb <? 2)%nat with false by lia. apply IH. exists kvs'.
      split; [assumption|]. split; [assumption|]. rewrite <- app_assoc. reflexivity.
Qed.

Lemma join_kvs_spec kvs : forall first out, join_kvs (map sortable kvs) first out = out ++ tail_members first kvs.
Proof.
  induction kvs as [|kv kvs IH]; intros first out; [cbn; rewrite app_nil_r; reflexivity|]. cbn [map join_kvs sortable]. rewrite IH.
  unfold tail_members at 2. rewrite join_members_cons. destruct first; rewrite <- !app_assoc; reflexivity.
Qed.

(** What is assumed of sort.Sort: the same elements, in an order where no key
    is greater than a later one. *)
Definition key_le (a b : bytes) : Prop := bytes_ltb b a = false.
Definition sort_ok (H : host) : Prop :=
  forall kvs, Permutation kvs (h_sort H kvs) /\ StronglySorted (fun a b => key_le (fst a) (fst b)) (h_sort H kvs).

Lemma StronglySorted_map {A B} (f : A -> B) (R : B -> B -> Prop) l :
  StronglySorted R (map f l) <-> StronglySorted (fun a b => R (f a) (f b)) l.
Proof.
  induction l as [|x l IH]; cbn; [split; constructor|]. split; intros Hs; inversion Hs as [|? ? H1 H2]; subst; constructor.
  - apply IH. exact H1. - rewrite Forall_map in H2. exact H2.
  - apply IH. exact H1. - rewrite Forall_map. exact H2.
Qed.

(** A map is written from what its entries give, in iteration order or sorted. *)
Lemma ventries_ret H o es out : sort_ok H -> ventries H o es = VRet out None ->
  exists kvs kvs', Forall2 gives es kvs /\ Permutation kvs kvs' /\ out = 123 :: join_members kvs' ++ [125] /\
    (if has (o_flags o) unsortedMap then kvs' = kvs
     else Forall (fun kv => (2 <= length (fst kv))%nat) kvs /\ StronglySorted (fun a b => key_le (sort_key (fst a)) (sort_key (fst b))) kvs').
Proof.
  intros SO. unfold ventries, vthen. destruct (has (o_flags o) unsortedMap).
  - destruct (vunsorted es true [123]) as [b [err|]| |] eqn:Eu; try discriminate. intros [= <-]. apply vunsorted_ret in Eu.
    destruct Eu as (kvs & Hf & ->). exists kvs, kvs. split; [exact Hf|]. split; [reflexivity|]. rewrite tail_members_true. split; reflexivity.
  - unfold vsorted. destruct (vfill es []) as [r| | |] eqn:Ef; try discriminate. intros [= <-]. apply vfill_ret in Ef.
    destruct Ef as (kvs & Hf & Hl & ->). cbn [app]. destruct (SO (map sortable kvs)) as [Hp Hs].
    assert (Hp' := Permutation_sym Hp). apply Permutation_map_inv in Hp'. destruct Hp' as (kvs' & E & Hp').
    exists kvs, kvs'. split; [exact Hf|]. split; [exact Hp'|]. rewrite E. rewrite join_kvs_spec, tail_members_true.
    split; [reflexivity|]. split; [exact Hl|]. rewrite E in Hs. exact (proj1 (StronglySorted_map sortable (fun a b => key_le (fst a) (fst b)) kvs') Hs).
Qed.

Lemma jmembers_join lax (ms : list (list cu * jval)) kvs :
  Forall2 (fun m kv => json no_ws lax (JStr (fst m)) (fst kv) /\ json no_ws lax (snd m) (snd kv)) ms kvs -> ms <> [] ->
  jmembers no_ws lax ms (join_members kvs).
Proof.
  induction 1 as [|[us j] [kb vb] ms kvs [Hk Hv] Hf IH]; [congruence|]. intros _. cbn [fst snd] in Hk, Hv.
  inversion Hk as [| | | |us' ks Hks| | | |]; subst. destruct ms as [|m ms].
  - inversion Hf; subst. cbn [join_members]. unfold member_text. cbn [fst snd].
    replace ((34 :: ks ++ [34]) ++ 58 :: vb) with ([] ++ 34 :: ks ++ 34 :: [] ++ 58 :: [] ++ vb ++ [])
      by (cbn [app]; rewrite app_nil_r, <- app_assoc; reflexivity).
    apply jm_one; (reflexivity || assumption).
  - rewrite join_members_cons. inversion Hf as [|? ? ? ? ? Hf']; subst. unfold tail_members. unfold member_text. cbn [fst snd].
    set (t := join_members _). replace (((34 :: ks ++ [34]) ++ 58 :: vb) ++ [44] ++ t) with ([] ++ 34 :: ks ++ 34 :: [] ++ 58 :: [] ++ vb ++ [] ++ 44 :: t)
        by (cbn [app]; rewrite <- !app_assoc; cbn [app]; rewrite <- ?app_assoc; reflexivity).
    apply jm_cons; try (reflexivity || assumption). apply IH. discriminate.
Qed.

Lemma json_members lax (ms : list (list cu * jval)) kvs :
  Forall2 (fun m kv => json no_ws lax (JStr (fst m)) (fst kv) /\ json no_ws lax (snd m) (snd kv)) ms kvs ->
  json no_ws lax (JObj ms) (123 :: join_members kvs ++ [125]).
Proof.
  intros Hf. destruct ms as [|m ms]; [inversion Hf; subst; apply (j_obj0 no_ws lax []); reflexivity|].
  apply j_obj. apply jmembers_join; [exact Hf | discriminate].
Qed.

Lemma Forall2_permute {A B} (R : A -> B -> Prop) l1 l2 l2' : Forall2 R l1 l2 -> Permutation l2 l2' ->
  exists l1', Permutation l1 l1' /\ Forall2 R l1' l2'.
Proof.
  assert (Flip : forall A B (R : A -> B -> Prop) l1 l2, Forall2 R l1 l2 -> Forall2 (fun b a => R a b) l2 l1) by (induction 1; constructor; auto).
  intros Hf Hp. apply Flip in Hf. destruct (Permutation_Forall2 Hp Hf) as (l1' & H1 & H2).
  exists l1'. split; [exact H1|]. apply Flip in H2. exact H2.
Qed.
