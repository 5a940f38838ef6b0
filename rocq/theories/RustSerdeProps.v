(** * RustSerdeProps: plain Rust data given to [serde] through [sval] (C64) *)

From Verif Require Import Base Event Tree DataModel DataProofs FragModel BufferSpec NestedModel NestedSpec NestedProofs NestedWhole NestedProps
  SerdeModel SerdeSpec SerdeProofs SerdeProps StdModel StdSpec StdProps RustModel RustSpec RustProofs RustSerdeSpec.

Lemma forallb_map {A B} (f : B -> bool) (g : A -> B) l : forallb f (map g l) = forallb (fun x => f (g x)) l.
Proof. induction l as [|x l IH]; [reflexivity|]. cbn. rewrite IH. reflexivity. Qed.

(** ** The [serde] reading of plain data *)
Definition read_right (v : datum) : Prop :=
  as_serde (mirror (dtree v)) = arrives v /\ shallow (mirror (dtree v)) = true.

Lemma index_u32 i : fits U32 (Z.of_nat i) = true -> index_to U32 (place (Z.of_nat i)) = Some (Z.of_nat i).
Proof.
  intros F. unfold index_to. cbn [place i_val]. rewrite (cast_fits I128 (ity_min U32)), (cast_fits I128 (ity_max U32)) by reflexivity.
  unfold fits in F. rewrite F. f_equal. apply cast_fits. exact F.
Qed.
Lemma name_kept s : as_static_str (kept_label (name_label s)) = Some s.
Proof. reflexivity. Qed.

Lemma tuple_values fs : Forall read_right fs -> forall z,
  map (fun f : option tag * index * rview => match f with (_, _, v) => as_serde v end)
    (map (fun f : option tag * index * tree => match f with (ft, fi, v) => (ft, fi, mirror v) end)
      (map (fun p => (None, place (fst p), snd p)) (from z (map dtree fs)))) = map arrives fs /\
  forallb (fun f : option tag * index * rview => match f with (_, _, v) => shallow v end)
    (map (fun f : option tag * index * tree => match f with (ft, fi, v) => (ft, fi, mirror v) end)
      (map (fun p => (None, place (fst p), snd p)) (from z (map dtree fs)))) = true.
Proof.
  induction 1 as [|f fs (E & S) _ IH]; intros z; [split; reflexivity|]. cbn [map from forallb fst snd]. destruct (IH (Z.succ z)) as (A & B).
  split; [rewrite E; f_equal; exact A|rewrite S; exact B].
Qed.
Lemma record_values fs : Forall read_right fs -> forall names z,
  let rs := map (fun f : option tag * label * index * tree => match f with (ft, fl, fi, v) => (ft, kept_label fl, mirror v) end)
              (map (fun p => let '(n, (k, t)) := p in (None, name_label n, place k, t)) (combine names (from z (map dtree fs)))) in
  named as_serde rs = (combine names (map arrives fs), true) /\
  forallb (fun f : option tag * label * rview => match f with (_, _, v) => shallow v end) rs = true.
Proof.
  induction 1 as [|f fs (E & S) _ IH]; intros [|n names] z; try (split; reflexivity). cbn [map from combine named forallb]. cbv zeta in IH.
  destruct (IH names (Z.succ z)) as (A & B). rewrite name_kept. split; [|rewrite S; exact B].
  unfold Z.succ in A. cbn [map from combine] in *. rewrite A, E. reflexivity.
Qed.
Lemma strings_fields names xs : map (fun f : bytes * sdata => let (a, b) := f in (a, strings b)) (combine names xs) = combine names (map strings xs).
Proof. revert xs. induction names as [|n names IH]; intros [|x xs]; try reflexivity. cbn [combine map]. f_equal. apply IH. Qed.

Lemma struct_right name s fs : Forall read_right fs -> List.length fs = arity s ->
  let r := mirror (plain_tree name None s (map dtree fs)) in
  as_serde r = serde_struct name s (map arrives fs) /\ shallow r = true.
Proof.
  intros H L. cbv zeta. destruct s as [|[|[|n]]|names].
  - split; reflexivity.
  - destruct fs; [|discriminate]. split; reflexivity.
  - destruct fs as [|f [|? ?]]; try discriminate. inversion H as [|? ? (E & S) _]; subst. cbn. rewrite E. split; [reflexivity|exact S].
  - cbn [plain_tree mirror okept option_map as_serde shallow too_deep negb andb serde_struct]. destruct (tuple_values fs H 0%Z) as (A & B).
    rewrite name_kept, A, B. split; reflexivity.
  - cbn [plain_tree mirror okept option_map as_serde shallow too_deep negb andb serde_struct]. destruct (record_values fs H names 0%Z) as (A & B).
    rewrite name_kept, A, B. split; reflexivity.
Qed.
Lemma variant_right e i name s fs : Forall read_right fs -> List.length fs = arity s -> fits U32 (Z.of_nat i) = true ->
  let r := mirror (TEnum None (Some (name_label e)) None (plain_tree name (Some (place (Z.of_nat i))) s (map dtree fs))) in
  as_serde r = serde_variant e i name s (map arrives fs) /\ shallow r = true.
Proof.
  intros H L F. cbv zeta. cbn [mirror okept option_map as_serde name_of]. rewrite name_kept. destruct s as [|[|[|n]]|names].
  - cbn [plain_tree mirror okept option_map index_of name_of]. rewrite name_kept, index_u32 by exact F. split; reflexivity.
  - destruct fs; [|discriminate]. cbn [plain_tree mirror okept option_map index_of name_of]. rewrite name_kept, index_u32 by exact F. split; reflexivity.
  - destruct fs as [|f [|? ?]]; try discriminate. inversion H as [|? ? (E & S) _]; subst.
    cbn [plain_tree mirror okept option_map index_of name_of map nth]. rewrite name_kept, index_u32, E by exact F. split; [reflexivity|exact S].
  - cbn [plain_tree mirror okept option_map index_of name_of]. destruct (tuple_values fs H 0%Z) as (A & B).
    rewrite name_kept, index_u32, A by exact F. cbn [shallow too_deep negb andb]. rewrite B. cbn [serde_variant]. split; reflexivity.
  - cbn [plain_tree mirror okept option_map index_of name_of]. destruct (record_values fs H names 0%Z) as (A & B).
    rewrite name_kept, index_u32, A by exact F. cbn [shallow too_deep negb andb]. rewrite B. cbn [serde_variant]. split; reflexivity.
Qed.

Lemma all_read v : typed v -> few_variants v = true -> read_right v.
Proof.
  assert (F : forall vs, Forall (fun v => typed v -> few_variants v = true -> read_right v) vs ->
    fold_right and True (map typed vs) -> forallb few_variants vs = true -> Forall read_right vs).
  { clear v. induction 1 as [|v vs Hv _ IH]; cbn; intros T A; [constructor|]. apply andb_true_iff in A. constructor; [apply Hv; tauto|apply IH; tauto]. }
  induction v using datum_ind'; intros T A; cbn [typed few_variants] in T, A; try discriminate; try (split; reflexivity).
  - split; [cbn|reflexivity]. rewrite app_nil_r. reflexivity.
  - split; [cbn|reflexivity]. rewrite app_nil_r. reflexivity.
  - destruct (IHv T A) as (E & S). split; [cbn; rewrite E; reflexivity|exact S].
  - specialize (F _ H T A). unfold read_right. cbn [dtree mirror as_serde shallow too_deep negb andb arrives]. rewrite !map_map.
    rewrite Forall_forall in F. split; [f_equal; apply map_ext_in; intros a I; apply F; exact I|].
    rewrite forallb_map. apply forallb_forall. intros a I. apply F. exact I.
  - specialize (F _ H T A). split; [reflexivity|]. cbn [dtree constant_size mirror shallow too_deep negb andb].
    rewrite Forall_forall in F. rewrite forallb_map. apply forallb_forall. intros r I. apply in_map_iff in I as (a & <- & I). apply F. exact I.
  - destruct T as (L & T). specialize (F _ H T A). unfold read_right. cbn [dtree mirror okept option_map as_serde shallow too_deep negb andb arrives].
    destruct (tuple_values vs F 0%Z) as (B & C). rewrite B, C. split; reflexivity.
  - assert (G : Forall (fun kv => read_right (fst kv) /\ read_right (snd kv)) es).
    { clear F. induction es as [|[k v] es IH]; [constructor|]. inversion H as [|? ? (Hk & Hv) H']; subst. cbn [map fold_right forallb fst snd] in *.
      destruct T as ((Tk & Tv) & T). apply andb_true_iff in A as (A1 & A). apply andb_true_iff in A1.
      constructor; [cbn [fst snd]; split; [apply Hk|apply Hv]; tauto|apply IH; assumption]. }
    unfold read_right. cbn [dtree mirror as_serde shallow too_deep negb andb arrives]. rewrite !map_map. rewrite Forall_forall in G.
    split; [f_equal; apply map_ext_in; intros [k v] I; destruct (G _ I) as ((Ek & _) & (Ev & _)); cbn [fst snd] in *; rewrite Ek, Ev; reflexivity|].
    rewrite forallb_map. apply forallb_forall. intros [k v] I. destruct (G _ I) as ((_ & Sk) & (_ & Sv)). cbn [fst snd] in *. rewrite Sk, Sv. reflexivity.
  - exact (IHv T A).
  - destruct T as (D & L & T). destruct (variant_of d i) as [[name s]|] eqn:V; [|contradiction]. apply andb_true_iff in A as (Fi & A).
    specialize (F _ H T A). unfold read_right. cbn [dtree arrives]. unfold data_tree. rewrite V. destruct d as [n s'|n vs]; cbn [variant_of] in V.
    + destruct i; [|discriminate]. injection V as -> ->. apply struct_right; assumption.
    + rewrite V. apply variant_right; assumption.
Qed.

(** ** C64 *)

(** A serializer is driven by a value that derives [Value] as by one that derives
    [Serialize]. *)
Definition C64_same_as_derive_serialize : Prop :=
  forall S, opaque_children S ->
  forall v, typed v -> few_variants v = true ->
  exists n, forall m, n <= m -> forall k, to_serialize S m (rust v) k = ser S (serde_of v) k.

(** A [char] arrives as a string and an array is an error, wherever they are; nothing
    else differs... *)
Theorem C64_exact :
  forall S, opaque_children S ->
  forall v, typed v -> few_variants v = true ->
  exists n, forall m, n <= m -> forall k, to_serialize S m (rust v) k = ser S (arrives v) k.
Proof.
  intros S OC v T A. destruct (all_read v T A) as (E & Sh). destruct (rust_holds v T) as (F & W).
  exists (levels (mirror (dtree v))). intros m L k. rewrite (C37_serializes_as S _ _ OC W F Sh m L k), E. reflexivity.
Qed.
(** ... and without arrays that is [derive(Serialize)] with the [char]s as strings... *)
Lemma strings_struct name s xs : strings (serde_struct name s xs) = serde_struct name s (map strings xs).
Proof.
  destruct s as [|[|[|n]]|names]; cbn [serde_struct strings]; rewrite ?strings_fields; try reflexivity.
  f_equal. change DUnit with (strings DUnit) at 2. rewrite map_nth. reflexivity.
Qed.
Lemma strings_variant e i name s xs : strings (serde_variant e i name s xs) = serde_variant e i name s (map strings xs).
Proof.
  destruct s as [|[|[|n]]|names]; cbn [serde_variant strings]; rewrite ?strings_fields; try reflexivity.
  f_equal. change DUnit with (strings DUnit) at 2. rewrite map_nth. reflexivity.
Qed.
Lemma arrives_strings v : has_array v = false -> arrives v = strings (serde_of v).
Proof.
  assert (F : forall vs, Forall (fun v => has_array v = false -> arrives v = strings (serde_of v)) vs ->
    existsb has_array vs = false -> map arrives vs = map strings (map serde_of vs)).
  { clear v. induction 1 as [|v vs Hv _ IH]; cbn; intros N; [reflexivity|]. apply orb_false_iff in N. f_equal; [apply Hv|apply IH]; tauto. }
  induction v using datum_ind'; intros N; cbn [has_array] in N; try discriminate; try reflexivity; cbn [arrives serde_of strings].
  - rewrite IHv by assumption. reflexivity.
  - rewrite F by assumption. reflexivity.
  - rewrite F by assumption. reflexivity.
  - f_equal. clear F. induction es as [|[k v] es IH]; [reflexivity|]. inversion H as [|? ? (Hk & Hv) H']; subst. cbn [map existsb fst snd] in *.
    apply orb_false_iff in N as (N1 & N). apply orb_false_iff in N1. rewrite Hk, Hv by tauto. f_equal. apply IH; assumption.
  - apply IHv; assumption.
  - specialize (F _ H N). destruct d as [n s|n vs].
    + rewrite strings_struct, F. reflexivity.
    + destruct (nth_error vs i) as [[vn s]|]; [|reflexivity]. rewrite strings_variant, F. reflexivity.
Qed.
Theorem C64_exact_partial :
  forall S, opaque_children S ->
  forall v, typed v -> few_variants v = true -> has_array v = false ->
  exists n, forall m, n <= m -> forall k, to_serialize S m (rust v) k = ser S (strings (serde_of v)) k.
Proof. intros S OC v T A N. rewrite <- arrives_strings by exact N. apply C64_exact; assumption. Qed.
(** ... so data without arrays and [char]s is serialized alike by all serializers... *)
Lemma strings_same v : typed v -> has_char v = false -> strings (serde_of v) = serde_of v.
Proof.
  assert (F : forall vs, Forall (fun v => typed v -> has_char v = false -> strings (serde_of v) = serde_of v) vs ->
    fold_right and True (map typed vs) -> existsb has_char vs = false -> map strings (map serde_of vs) = map serde_of vs).
  { clear v. induction 1 as [|v vs Hv _ IH]; cbn; intros T N; [reflexivity|]. apply orb_false_iff in N. f_equal; [apply Hv; tauto|apply IH; tauto]. }
  induction v using datum_ind'; intros T N; cbn [typed has_char] in T, N; try discriminate; try reflexivity; cbn [serde_of strings].
  - rewrite IHv by assumption. reflexivity.
  - rewrite F by assumption. reflexivity.
  - rewrite F by assumption. reflexivity.
  - rewrite F by tauto. reflexivity.
  - f_equal. clear F. induction es as [|[k v] es IH]; [reflexivity|]. inversion H as [|? ? (Hk & Hv) H']; subst. cbn [map fold_right existsb fst snd] in *.
    destruct T as ((Tk & Tv) & T). apply orb_false_iff in N as (N1 & N). apply orb_false_iff in N1.
    rewrite Hk, Hv by tauto. f_equal. apply IH; assumption.
  - apply IHv; assumption.
  - destruct T as (_ & L & T). specialize (F _ H T N). destruct d as [n s|n vs].
    + cbn [variant_of] in L. destruct i; [|contradiction]. destruct s as [|[|[|m]]|names]; cbn [serde_struct strings]; rewrite ?strings_fields, ?F; try reflexivity.
      destruct fs as [|f [|? ?]]; try discriminate. cbn in F |- *. injection F as ->. reflexivity.
    + cbn [variant_of] in L. destruct (nth_error vs i) as [[vn s]|]; [|reflexivity].
      destruct s as [|[|[|m]]|names]; cbn [serde_variant strings]; rewrite ?strings_fields, ?F; try reflexivity.
      destruct fs as [|f [|? ?]]; try discriminate. cbn in F |- *. injection F as ->. reflexivity.
Qed.
Theorem C64_same_as_derive_serialize_partial :
  forall S, opaque_children S ->
  forall v, typed v -> few_variants v = true -> has_array v = false -> has_char v = false ->
  exists n, forall m, n <= m -> forall k, to_serialize S m (rust v) k = ser S (serde_of v) k.
Proof.
  intros S OC v T A N C. destruct (C64_exact_partial S OC v T A N) as (n & H). exists n. intros m L k. rewrite (H m L k), strings_same by assumption. reflexivity.
Qed.
(** ... and data without arrays by those that treat a [char] as a string. *)
Theorem C64_same_as_strings_partial :
  forall S, opaque_children S -> chars_as_strings S -> default_collect_str S ->
  forall v, typed v -> few_variants v = true -> has_array v = false ->
  exists n, forall m, n <= m -> forall k, to_serialize S m (rust v) k = ser S (serde_of v) k.
Proof.
  intros S OC HC HD v T A N. destruct (C64_exact_partial S OC v T A N) as (n & H). exists n. intros m L k. rewrite (H m L k). apply ser_strings; assumption.
Qed.

(** An array is refused by every serializer. *)
Theorem C64_arrays_fail : forall S vs, opaque_children S -> typed (VArray vs) -> few_variants (VArray vs) = true ->
  exists n, forall m, n <= m -> forall k, to_serialize S m (rust (VArray vs)) k = OErr.
Proof. intros S vs OC T A. exact (C64_exact S OC (VArray vs) T A). Qed.
Theorem C64_same_as_derive_serialize_refuted : ~ C64_same_as_derive_serialize.
Proof.
  intros H. destruct (H rebuild rebuild_opaque (VArray []) I eq_refl) as (n & X).
  destruct (C64_arrays_fail rebuild [] rebuild_opaque I eq_refl) as (n' & X').
  specialize (X (n + n')%nat ltac:(lia) tt). specialize (X' (n + n')%nat ltac:(lia) tt). rewrite X in X'. discriminate X'.
Qed.
(** Leaving arrays out is not enough: a serializer may tell a [char] from a string. *)
Definition C64_without_arrays : Prop :=
  forall S, opaque_children S ->
  forall v, typed v -> few_variants v = true -> has_array v = false ->
  exists n, forall m, n <= m -> forall k, to_serialize S m (rust v) k = ser S (serde_of v) k.
Theorem C64_without_arrays_refuted : ~ C64_without_arrays.
Proof.
  intros H. assert (T : typed (VChar 65)) by (left; reflexivity). destruct (H rebuild rebuild_opaque (VChar 65) T eq_refl eq_refl) as (n & X).
  destruct (C64_exact_partial rebuild rebuild_opaque (VChar 65) T eq_refl eq_refl) as (n' & X').
  specialize (X (n + n')%nat ltac:(lia) tt). specialize (X' (n + n')%nat ltac:(lia) tt). rewrite X in X'. discriminate X'.
Qed.

(** A value with every kind of data but arrays and [char]s in it, rebuilt by a
    serializer. *)
Definition serde_decl : decl := PEnum (bs "Shape") [(bs "Empty", PUnit); (bs "Circle", PTuple 1); (bs "Rect", PNamed [bs "w"; bs "h"]); (bs "Tri", PTuple 3)].
Definition serde_sample : datum :=
  VData (PStruct (bs "All") (PNamed [bs "id"; bs "opt"; bs "shapes"; bs "pair"; bs "map"; bs "unit"])) 0
    [ VData (PStruct (bs "Id") (PTuple 1)) 0 [VInt U64 7];
      VSome VNone;
      VVec [VData serde_decl 0 []; VData serde_decl 1 [VBool true]; VData serde_decl 2 [VInt I8 (-1); VUnit]; VData serde_decl 3 [VUnit; VVec []; VStr (bs "s")]];
      VTup [VInt I32 (-5); VF64 S754_nan];
      VMap [(VStr (bs "k"), VData (PStruct (bs "P") (PTuple 2)) 0 [VUnit; VUnit])];
      VData (PStruct (bs "U") PUnit) 0 [] ].
Lemma serde_sample_typed : typed serde_sample.
Proof. cbn; repeat (split || apply I || apply conj); try (vm_compute; reflexivity); lia. Qed.
Example C64_sample : typed serde_sample /\ few_variants serde_sample = true /\ has_array serde_sample = false /\ has_char serde_sample = false /\
  to_serialize rebuild 20 (rust serde_sample) tt = OOk (serde_of serde_sample).
Proof. split; [exact serde_sample_typed|]. repeat split; vm_compute; reflexivity. Qed.

(** A serializer that goes on after an element it cannot serialize gets the rest. *)
Definition lenient : serializer :=
  {| k_ser := unit; k_ok := list bytes;
     k_seq := list bytes; k_tuple := unit; k_tstruct := unit; k_tvariant := unit; k_map := unit; k_struct := unit; k_svariant := unit;
     s_bool := fun _ _ => OOk []; s_int := fun _ _ _ => OOk []; s_f32 := fun _ _ => OOk []; s_f64 := fun _ _ => OOk [];
     s_char := fun _ _ => OErr; s_str := fun _ s => OOk [s]; s_bytes := fun _ _ => OErr; s_collect_str := fun _ _ => OErr;
     s_none := fun _ => OOk []; s_some := fun k c => c k; s_unit := fun _ => OOk []; s_unit_struct := fun _ _ => OOk [];
     s_unit_variant := fun _ _ _ _ => OOk []; s_newtype_struct := fun k _ c => c k; s_newtype_variant := fun k _ _ _ c => c k;
     s_seq := fun _ _ => OOk []; s_tuple := fun _ _ => OErr; s_tuple_struct := fun _ _ _ => OErr; s_tuple_variant := fun _ _ _ _ _ => OErr;
     s_map := fun _ _ => OErr; s_struct := fun _ _ _ => OErr; s_struct_variant := fun _ _ _ _ _ => OErr;
     k_seq_element := fun s c => match c tt with OOk r => OOk (s ++ r) | _ => OOk (s ++ [bs "?"]) end; k_seq_end := fun s => OOk s;
     k_tuple_element := fun s _ => OOk s; k_tuple_end := fun _ => OErr; k_tstruct_field := fun s _ => OOk s; k_tstruct_end := fun _ => OErr;
     k_tvariant_field := fun s _ => OOk s; k_tvariant_end := fun _ => OErr; k_map_key := fun s _ => OOk s; k_map_value := fun s _ => OOk s; k_map_end := fun _ => OErr;
     k_struct_field := fun s _ _ => OOk s; k_struct_end := fun _ => OErr; k_svariant_field := fun s _ _ => OOk s; k_svariant_end := fun _ => OErr |}.
Example C64_exact_applies :
  let v := VVec [VChar 97; VArray [VStr (bs "x")]; VRef (VStr (bs "b"))] in
  typed v /\ few_variants v = true /\ has_array v = true /\ opaque_children lenient /\
  to_serialize lenient 20 (rust v) tt = OOk [bs "a"; bs "?"; bs "b"].
Proof.
  split; [cbn; repeat split; try (vm_compute; reflexivity); left; reflexivity|]. do 2 (split; [vm_compute; reflexivity|]).
  split; [|vm_compute; reflexivity]. constructor; intros; cbn; rewrite ?H; reflexivity.
Qed.

Print Assumptions C64_exact.
Print Assumptions C64_exact_partial.
Print Assumptions C64_same_as_derive_serialize_partial.
Print Assumptions C64_same_as_strings_partial.
Print Assumptions C64_arrays_fail.
Print Assumptions C64_same_as_derive_serialize_refuted.
Print Assumptions C64_without_arrays_refuted.
