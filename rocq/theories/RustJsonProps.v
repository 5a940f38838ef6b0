(** * RustJsonProps: plain Rust data as JSON (C63) *)

From Verif Require Import Base Event Tree LowerModel LowerSpec JsonModel JsonGrammar JsonSpec JsonProofs JsonProps JsonTextSpec JsonTextProps
  StdModel StdSpec StdProps RustModel RustSpec RustProofs.

(** ** Lists inside the predicates of JsonSpec.v *)
Lemma ordinary_list n vs : Forall ordinary vs -> ordinary (TSeq n vs).
Proof. induction 1; cbn; auto. Qed.
Lemma safe_list n vs : Forall safe vs -> safe (TSeq n vs).
Proof. induction 1; cbn; auto. Qed.
Lemma ordinary_tuple t l i n fs : Forall (fun f => ordinary (snd f)) fs -> ordinary (TTuple t l i n fs).
Proof. induction 1 as [|[[? ?] ?]]; cbn; auto. Qed.
Lemma safe_tuple t l i n fs : Forall (fun f => safe (snd f)) fs -> safe (TTuple t l i n fs).
Proof. induction 1 as [|[[? ?] ?]]; cbn; auto. Qed.
Lemma ordinary_rectup t l i n fs : Forall (fun f => ident_ok (snd (fst (fst f))) = true /\ ordinary (snd f)) fs -> ordinary (TRecTup t l i n fs).
Proof. induction 1 as [|[[[? ?] ?] ?] ? []]; cbn in *; auto. Qed.
Lemma safe_rectup t l i n fs : Forall (fun f => safe (snd f)) fs -> safe (TRecTup t l i n fs).
Proof. induction 1 as [|[[[? ?] ?] ?]]; cbn in *; auto. Qed.
Lemma ordinary_map n es : Forall (fun kv => key_text (fun _ => []) (fun _ => []) false (fst kv) <> None /\ ordinary (snd kv)) es -> ordinary (TMap n es).
Proof. induction 1 as [|[? ?] ? []]; cbn in *; auto. Qed.
Lemma safe_map n es : Forall (fun kv => key_leaks (fst kv) && takes_name (snd kv) = false /\ safe (snd kv)) es -> safe (TMap n es).
Proof. induction 1 as [|[? ?] ? []]; cbn in *; auto. Qed.

Lemma ident_byte_plain b : ident_byte b = true ->
  (let n := N_of_ascii b in negb (n =? 34)%N && negb (n =? 92)%N && (32 <=? n)%N) = true.
Proof. destruct b as [[] [] [] [] [] [] [] []]; intros H; vm_compute in H; try discriminate; reflexivity. Qed.
Lemma identifier_ok s : identifier s = true -> ident_ok (name_label s) = true.
Proof.
  intros H. unfold ident_ok. apply orb_true_iff. right. cbn [name_label l_text]. destruct s as [|b s]; [reflexivity|].
  unfold identifier in H. apply andb_true_iff in H as (H & _). rewrite forallb_forall in *. intros c I. apply ident_byte_plain. apply H. exact I.
Qed.

Lemma from_snd {A} (P : A -> Prop) l : Forall P l -> forall i, Forall (fun p => P (snd p)) (from i l).
Proof. induction 1; intros i; cbn [from]; constructor; auto. Qed.

Section Json.
  Variable r32 r64 : float -> bytes.
  Notation compact := (compact r32 r64).
  Notation serde_json := (serde_json r32 r64).

  Definition right (v : datum) : Prop := ordinary (dtree v) /\ safe (dtree v) /\ compact false (dtree v) = serde_json v.

  Lemma float_same r f : float_key r f = json_float r f.
  Proof. destruct f; reflexivity. Qed.

  (** Keys. *)
  Lemma key_same q32 q64 k : forall s, typed k -> serde_key k = Some s -> key_text q32 q64 false (dtree k) = Some s.
  Proof.
    induction k using datum_ind'; intros s0 T K; cbn [serde_key] in K; try discriminate; try (injection K as <-; cbn; rewrite ?app_nil_r; reflexivity).
    - cbn [dtree]. apply IHk; assumption.
    - destruct T as (_ & L & T). destruct d as [n st|n vs].
      + destruct st as [|[|[|?]]|?]; try discriminate. destruct fs as [|f [|? ?]]; try discriminate. destruct i; [|contradiction].
        inversion H; subst. cbn. apply H2; [apply T|exact K].
      + cbn [variant_of] in L. cbn [dtree]. unfold data_tree. cbn [variant_of]. destruct (nth_error vs i) as [[vn [|m|ns]]|]; try discriminate. injection K as <-. reflexivity.
  Qed.
  Lemma leaks_named k : key_leaks (dtree k) = true -> forall s, serde_key k = Some s -> named_key k = true.
  Proof.
    induction k using datum_ind'; cbn [dtree named_key serde_key]; intros L s0 K; try discriminate; try reflexivity. eauto.
  Qed.
  Lemma takes_named v : takes_name (dtree v) = true -> named_value v = true.
  Proof.
    induction v using datum_ind'; cbn [dtree named_value]; intros L; try discriminate; try reflexivity; [auto|].
    destruct d as [n s|n vs]; [|reflexivity]. destruct s; try reflexivity. destruct i; discriminate L.
  Qed.

  (** The fields of a struct or variant. *)
  Lemma combine_named {A} names (xs : list A) : forall i (f : bytes -> Z -> A -> bytes) (g : bytes -> A -> bytes), (forall n k x, f n k x = g n x) ->
    map (fun p => let '(n, (k, x)) := p in f n k x) (combine names (from i xs)) = map (fun p => g (fst p) (snd p)) (combine names xs).
  Proof.
    revert names. induction xs as [|x xs IH]; intros [|n names] i f g E; try reflexivity. cbn [from combine map fst snd]. f_equal; [apply E|]. apply IH. exact E.
  Qed.
  Lemma fields_right inside name i s fs : style_ok s = true -> Forall right fs -> List.length fs = arity s ->
    let t := plain_tree name i s (map dtree fs) in
    ordinary t /\ safe t /\
    compact inside t = match s with
                       | PUnit => json_string name
                       | _ => let c := json_fields s (map serde_json fs) in if inside then object [member name c] else c
                       end.
  Proof.
    intros S H L. cbv zeta. destruct s as [|[|[|n]]|names]; cbn [plain_tree].
    - repeat split.
    - destruct fs; [|discriminate]. split; [exact I|split; [exact I|]]. destruct inside; reflexivity.
    - destruct fs as [|f [|? ?]]; try discriminate. inversion H as [|? ? (O & Sf & C) _]; subst. cbn [map nth].
      split; [split; [reflexivity|exact O]|]. split; [exact Sf|]. cbn [JsonTextSpec.compact]. rewrite C. destruct inside; reflexivity.
    - assert (O : Forall (fun t => ordinary t) (map dtree fs)) by (rewrite Forall_map; eapply Forall_impl; [|exact H]; intros a Ra; apply Ra).
      assert (Sf : Forall (fun t => safe t) (map dtree fs)) by (rewrite Forall_map; eapply Forall_impl; [|exact H]; intros a Ra; apply Ra).
      split; [|split].
      + apply ordinary_tuple. rewrite Forall_map. cbn [snd]. apply from_snd. exact O.
      + apply safe_tuple. rewrite Forall_map. cbn [snd]. apply from_snd. exact Sf.
      + cbn [JsonTextSpec.compact json_fields].
        replace (map _ (map _ (from 0 (map dtree fs)))) with (map serde_json fs); [destruct inside; reflexivity|].
        rewrite map_map. cbn [snd fst]. clear L O Sf. generalize 0%Z. induction H as [|f fs (_ & _ & C) H IH]; intros z; [reflexivity|].
        cbn [map from snd]. rewrite C. f_equal. apply IH.
    - unfold style_ok in S. apply andb_true_iff in S as (_ & Nm). cbn [field_names arity] in *.
      assert (A : Forall (fun p => ident_ok (name_label (fst p)) = true /\ ordinary (snd (snd p)) /\ safe (snd (snd p))) (combine names (from 0 (map dtree fs)))).
      { clear L. generalize 0%Z. revert names Nm. induction H as [|f fs (O & Sf & C) H IH]; intros names Nm z; [destruct names; constructor|].
        destruct names as [|n names]; [constructor|]. cbn [map from combine forallb] in *. apply andb_true_iff in Nm as (N1 & N2).
        constructor; [cbn [fst snd]; auto using identifier_ok|apply IH; exact N2]. }
      split; [|split].
      + apply ordinary_rectup. rewrite Forall_map. eapply Forall_impl; [|exact A]. intros [n [k t]] (B & C & _). split; assumption.
      + apply safe_rectup. rewrite Forall_map. eapply Forall_impl; [|exact A]. intros [n [k t]] (_ & _ & D). exact D.
      + cbn [JsonTextSpec.compact json_fields].
        replace (map _ (map _ (combine names (from 0 (map dtree fs))))) with (map (fun nx => member (fst nx) (snd nx)) (combine names (map serde_json fs)));
          [destruct inside; reflexivity|].
        rewrite map_map. clear L A Nm. generalize 0%Z. revert names. induction H as [|f fs (_ & _ & C) H IH]; intros [|n names] z; try reflexivity.
        cbn [map from combine fst snd name_label l_text]. rewrite C. f_equal. apply IH.
  Qed.

  Lemma all_right v : typed v -> serde_accepts v = true -> unit_struct v = false -> named_entry v = false -> right v.
  Proof.
    assert (F : forall vs, Forall (fun v => typed v -> serde_accepts v = true -> unit_struct v = false -> named_entry v = false -> right v) vs ->
      fold_right and True (map typed vs) -> forallb serde_accepts vs = true -> existsb unit_struct vs = false -> existsb named_entry vs = false -> Forall right vs).
    { clear v. induction 1 as [|v vs Hv _ IH]; cbn; intros T A U N; [constructor|]. apply andb_true_iff in A. apply orb_false_iff in U, N. constructor; [apply Hv; tauto|apply IH; tauto]. }
    induction v using datum_ind'; intros T A U N; cbn [typed serde_accepts unit_struct named_entry] in T, A, U, N.
    1-4,6-8: split; [exact I|split; [exact I|]].
    - reflexivity.
    - reflexivity.
    - reflexivity.
    - apply float_same.
    - cbn. rewrite app_nil_r. reflexivity.
    - cbn. rewrite app_nil_r. reflexivity.
    - reflexivity.
    - split; [exact I|split; [exact I|]]. apply float_same.
    - destruct (IHv T A U N) as (O & S & C). split; [split; [reflexivity|exact O]|]. split; [exact S|]. cbn. exact C.
    - specialize (F _ H T A U N). split; [|split].
      + apply ordinary_list. rewrite Forall_map. eapply Forall_impl; [|exact F]. intros a Ra; apply Ra.
      + apply safe_list. rewrite Forall_map. eapply Forall_impl; [|exact F]. intros a Ra; apply Ra.
      + cbn [dtree JsonTextSpec.compact RustSpec.serde_json]. f_equal. rewrite map_map. apply map_ext_in. rewrite Forall_forall in F. intros a I. apply F. exact I.
    - specialize (F _ H T A U N). split; [|split].
      + split; [reflexivity|]. change (ordinary (TSeq (Some (len vs)) (map dtree vs))). apply ordinary_list. rewrite Forall_map. eapply Forall_impl; [|exact F]. intros a Ra; apply Ra.
      + change (safe (TSeq (Some (len vs)) (map dtree vs))). apply safe_list. rewrite Forall_map. eapply Forall_impl; [|exact F]. intros a Ra; apply Ra.
      + cbn [dtree constant_size JsonTextSpec.compact RustSpec.serde_json under]. change (is_raw (Some CONSTANT_SIZE)) with false. cbv iota. f_equal. rewrite map_map. apply map_ext_in. rewrite Forall_forall in F. intros a I. apply F. exact I.
    - destruct T as (L & T). specialize (F _ H T A U N). split; [|split].
      + apply ordinary_tuple. rewrite Forall_map. cbn [snd]. apply (from_snd ordinary). rewrite Forall_map. eapply Forall_impl; [|exact F]. intros a Ra; apply Ra.
      + apply safe_tuple. rewrite Forall_map. cbn [snd]. apply (from_snd safe). rewrite Forall_map. eapply Forall_impl; [|exact F]. intros a Ra; apply Ra.
      + cbn [dtree JsonTextSpec.compact RustSpec.serde_json under]. f_equal. rewrite map_map. cbn [fst snd].
        clear - F. generalize 0%Z. induction F as [|f fs (_ & _ & C) H IH]; intros z; [reflexivity|]. cbn [map from snd]. rewrite C. f_equal. apply IH.
    - assert (G : Forall (fun kv => (exists s, serde_key (fst kv) = Some s /\ key_text (fun _ => []) (fun _ => []) false (dtree (fst kv)) = Some s /\
                     key_text r32 r64 false (dtree (fst kv)) = Some s) /\ key_leaks (dtree (fst kv)) && takes_name (dtree (snd kv)) = false /\ right (snd kv)) es).
      { clear F. induction es as [|[k v] es IH]; [constructor|]. inversion H as [|? ? (_ & Hv) H']; subst. cbn [map fold_right forallb existsb fst snd] in *.
        destruct T as ((Tk & Tv) & T). apply andb_true_iff in A as (A1 & A). apply andb_true_iff in A1 as (Ak & Av).
        apply orb_false_iff in U as (U1 & U). apply orb_false_iff in U1 as (Uk & Uv).
        apply orb_false_iff in N as (N1 & N). apply orb_false_iff in N1 as (Nk & Nv).
        constructor; [|apply IH; assumption]. cbn [fst snd]. destruct (serde_key k) as [s|] eqn:E; [|discriminate].
        split; [exists s; split; [reflexivity|split; apply key_same; assumption]|]. split; [|apply Hv; assumption].
        destruct (key_leaks (dtree k)) eqn:Lk; [|reflexivity]. rewrite (leaks_named k Lk s E) in Nk. cbn [andb] in *.
        destruct (takes_name (dtree v)) eqn:Tn; [|reflexivity]. rewrite (takes_named v Tn) in Nk. discriminate. }
      split; [|split].
      + apply ordinary_map. rewrite Forall_map. eapply Forall_impl; [|exact G]. intros [k v] ((s & _ & K & _) & _ & R). cbn [fst snd] in *. split; [intros Z; change (key_text (fun _ => []) (fun _ => []) false (dtree k) = None) in Z; rewrite K in Z; discriminate|apply R].
      + apply safe_map. rewrite Forall_map. eapply Forall_impl; [|exact G]. intros [k v] (_ & L & R). cbn [fst snd] in *. split; [exact L|apply R].
      + cbn [dtree JsonTextSpec.compact RustSpec.serde_json]. f_equal. rewrite map_map. apply map_ext_in. rewrite Forall_forall in G.
        intros [k v] I. destruct (G _ I) as ((s & E & _ & K) & _ & (_ & _ & C)). cbn [fst snd] in *. rewrite E, K, C. reflexivity.
    - exact (IHv T A U N).
    - destruct T as (D & L & T). destruct (variant_of d i) as [[name s]|] eqn:V; [|contradiction].
      destruct (style_of_decl _ _ _ _ D V) as (Sk & _).
      assert (U' : existsb unit_struct fs = false).
      { destruct d as [n [| |]|]; try exact U; discriminate. }
      specialize (F _ H T A U' N). unfold right. cbn [dtree]. unfold data_tree. rewrite V. destruct d as [n s'|n vs].
      + cbn [variant_of] in V. destruct i; [|discriminate]. injection V as -> ->.
        destruct (fields_right false name None s fs Sk F L) as (O & S & C). split; [exact O|split; [exact S|]]. rewrite C.
        cbn [RustSpec.serde_json]. destruct s; [discriminate U|reflexivity..].
      + cbn [variant_of] in V. destruct (fields_right true name (Some (place (Z.of_nat i))) s fs Sk F L) as (O & S & C). split; [|split].
        * split; [|exact O]. destruct s as [|[|[|]]|]; reflexivity.
        * split; [exact S|]. split; destruct s as [|[|[|]]|]; reflexivity.
        * cbn [JsonTextSpec.compact under RustSpec.serde_json]. rewrite C, V. destruct s; reflexivity.
  Qed.
End Json.

(** ** C63 *)

(** [sval_json] writes what [serde_json] writes. *)
Definition C63_serde_compatible : Prop :=
  forall r32 r64, json_printer r32 -> json_printer r64 ->
  forall v, typed v -> serde_accepts v = true ->
  json_to_string r32 r64 (rust v) = SOk (serde_json r32 r64 v).

Theorem C63_serde_compatible_partial :
  forall r32 r64, json_printer r32 -> json_printer r64 ->
  forall v, typed v -> serde_accepts v = true -> unit_struct v = false -> named_entry v = false ->
  json_to_string r32 r64 (rust v) = SOk (serde_json r32 r64 v).
Proof.
  intros r32 r64 P32 P64 v T A U N. destruct (all_right r32 r64 v T A U N) as (O & S & C).
  rewrite <- C. apply C20_compact_text_partial; try assumption; [apply (rust_holds v T)|]. apply ordinary_writable; assumption.
Qed.

(** A unit struct is its name, not [null]. *)
Definition unit_marker : datum := VData (PStruct (bs "Marker") PUnit) 0 [].
Theorem C63_serde_compatible_refuted : ~ C63_serde_compatible.
Proof.
  intros H. specialize (H _ _ exact_print_json exact_print_json unit_marker).
  assert (T : typed unit_marker) by (repeat split). specialize (H T eq_refl). vm_compute in H. discriminate H.
Qed.
Example C63_unit_struct : json_to_string exact_print exact_print (rust unit_marker) = SOk (bs """Marker""") /\
  serde_json exact_print exact_print unit_marker = bs "null".
Proof. split; vm_compute; reflexivity. Qed.

(** Nor is it enough to leave those out: the name of a newtype key leaks into a struct
    that is its value, [{Id(7): User { name: "x" }}]. *)
Definition C63_without_unit_structs : Prop :=
  forall r32 r64, json_printer r32 -> json_printer r64 ->
  forall v, typed v -> serde_accepts v = true -> unit_struct v = false ->
  json_to_string r32 r64 (rust v) = SOk (serde_json r32 r64 v).
Definition users : datum :=
  VMap [(VData (PStruct (bs "Id") (PTuple 1)) 0 [VInt U64 7], VData (PStruct (bs "User") (PNamed [bs "name"])) 0 [VStr (bs "x")])].
Lemma users_typed : typed users.
Proof. cbn. repeat split. Qed.
Theorem C63_without_unit_structs_refuted : ~ C63_without_unit_structs.
Proof.
  intros H. specialize (H _ _ exact_print_json exact_print_json users users_typed eq_refl eq_refl). vm_compute in H. discriminate H.
Qed.
Example C63_users : json_to_string exact_print exact_print (rust users) = SOk (bs "{""7"":{""User"":{""name"":""x""}}") /\
  serde_json exact_print exact_print users = bs "{""7"":{""name"":""x""}}".
Proof. split; vm_compute; reflexivity. Qed.

(** A value with every kind of data in it. *)
Definition shape_decl : decl := PEnum (bs "Shape") [(bs "Empty", PUnit); (bs "Circle", PTuple 1); (bs "Rect", PNamed [bs "w"; bs "h"]); (bs "Tri", PTuple 3)].
Definition rust_sample : datum :=
  VData (PStruct (bs "All") (PNamed [bs "id"; bs "tags"; bs "opt"; bs "none"; bs "shapes"; bs "by_kind"; bs "pair"; bs "arr"; bs "unit"; bs "c"])) 0
    [ VData (PStruct (bs "Id") (PTuple 1)) 0 [VInt U64 18446744073709551615];
      VVec [VStr (bs "a""\"); VRef (VStr (bs ""))];
      VSome (VSome (VBool true));
      VNone;
      VArray [VData shape_decl 0 []; VData shape_decl 1 [VF64 (S754_finite false 3 (-1))]; VData shape_decl 2 [VInt I8 (-1); VF32 S754_nan];
              VData shape_decl 3 [VUnit; VVec []; VMap []]];
      VMap [(VData shape_decl 0 [], VInt U8 0); (VData (PStruct (bs "Id") (PTuple 1)) 0 [VInt U64 5], VVec [VSome (VInt U8 1)]); (VChar 233, VTup [VInt U8 1])];
      VTup [VInt I32 (-5); VBool false];
      VMap [(VInt I64 (-3), VData (PStruct (bs "P") (PTuple 2)) 0 [VUnit; VUnit]); (VBool true, VData (PStruct (bs "Q") (PTuple 0)) 0 [])];
      VUnit;
      VChar 10 ].
Lemma rust_sample_typed : typed rust_sample.
Proof. cbn; repeat (split || apply I || apply conj); try (vm_compute; reflexivity); try lia; try (left; vm_compute; reflexivity). Qed.
Example C63_sample : typed rust_sample /\ serde_accepts rust_sample = true /\ unit_struct rust_sample = false /\ named_entry rust_sample = false /\
  json_to_string exact_print exact_print (rust rust_sample) =
  SOk (bs "{""id"":18446744073709551615,""tags"":[""a\""\\"",""""],""opt"":true,""none"":null,""shapes"":[""Empty"",{""Circle"":15e-1},{""Rect"":{""w"":-1,""h"":null}},{""Tri"":[null,[],{}]}],""by_kind"":{""Empty"":0,""5"":[1],""" ++ [ascii_of_N 195; ascii_of_N 169] ++ bs """:[1]},""pair"":[-5,false],""arr"":{""-3"":[null,null],""true"":[]},""unit"":null,""c"":""\n""}").
Proof.
  split; [exact rust_sample_typed|]. split; [reflexivity|]. split; [reflexivity|]. split; [reflexivity|].
  rewrite (C63_serde_compatible_partial _ _ exact_print_json exact_print_json _ rust_sample_typed eq_refl eq_refl eq_refl).
  vm_compute. reflexivity.
Qed.

Print Assumptions C63_serde_compatible_partial.
Print Assumptions C63_serde_compatible_refuted.
Print Assumptions C63_without_unit_structs_refuted.
