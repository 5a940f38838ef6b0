(** * RustFmtExactProps: what [sval_fmt] makes of any plain Rust data (C65) *)

From Verif Require Import Base Event Tree FlatProofs Utf8 JsonUtf8Props FmtModel FmtSpec FmtProofs FmtProps BufferedProps
  StdModel StdSpec StdProps RustModel RustSpec RustProofs RustFmtSpec RustFmtProps.

(** ** Specification: [debug_of] of RustFmtSpec.v with the differences *)

(** Nothing in it: an empty sequence, map or list of fields, possibly in [Some] or newtype
    structs. *)
Fixpoint nothing_in (v : datum) : bool :=
  match v with
  | VVec [] | VArray [] | VMap [] => true
  | VSome v | VRef v => nothing_in v
  | VData (PStruct _ (PTuple 0)) _ _ | VData (PStruct _ (PNamed [])) _ _ => true
  | VData (PStruct _ (PTuple 1)) _ [v] => nothing_in v
  | _ => false
  end.

Section Shown.
  (** [Display] of floats, and the Unicode tables behind [char::escape_debug]. *)
  Variable p32 p64 : float -> bytes.
  Variable uni : bytes -> list bytes.

  (** Single quotes are escaped in strings, and characters are strings. *)
  Definition shown_str (s : bytes) : bytes := dquote :: List.concat (map (esc_char uni) (chars s)) ++ [dquote].
  (** Empty lists of fields keep their brackets. *)
  Definition shown_fields (name : bytes) (s : style) (xs : list bytes) : bytes :=
    match s with
    | PUnit => name
    | PTuple _ => name ++ bs "(" ++ commas xs ++ bs ")"
    | PNamed [] => name ++ bs " {}"
    | PNamed names => name ++ bs " { " ++ commas (map (fun nx => fst nx ++ bs ": " ++ snd nx) (combine names xs)) ++ bs " }"
    end.
  Fixpoint shown_of (v : datum) : bytes :=
    match v with
    | VUnit => bs "()"
    | VBool b => if b then bs "true" else bs "false"
    | VInt _ z => dec z
    | VF32 f => p32 f
    | VF64 f => p64 f
    | VChar c => shown_str (encode_utf8 c)
    | VStr s => shown_str s
    | VNone => bs "None"
    | VSome v => bs "Some(" ++ shown_of v ++ bs ")"
    | VVec vs | VArray vs => bs "[" ++ commas (map shown_of vs) ++ bs "]"
    | VTup vs => bs "(" ++ commas (map shown_of vs) ++ bs ")"
    | VMap [] => bs "{}"
    | VMap es => bs "{ " ++ commas (map (fun kv => match kv with (k, v) => shown_of k ++ bs ": " ++ shown_of v end) es) ++ bs " }"
    | VRef v => shown_of v
    | VData d i fs =>
        match variant_of d i with
        | Some (name, s) =>
            shown_fields name s (map shown_of fs) ++
            (* the name of an enum again, after a variant with nothing in it *)
            match d, s with
            | PEnum e _, PTuple 0 | PEnum e _, PNamed [] => e
            | PEnum e _, PTuple 1 => if existsb nothing_in fs then e else []
            | _, _ => []
            end
        | None => []
        end
    end.
End Shown.

(** ** Proofs *)

Lemma scalar_utf8 c : scalar c -> utf8 (encode_utf8 c) = true.
Proof. intros H. apply utf8P_iff. rewrite <- (app_nil_r (encode_utf8 c)). constructor; [apply C40_char_encoding, H|constructor]. Qed.

Lemma typed_good v : typed v -> good (dtree v).
Proof.
  assert (F : forall vs, Forall (fun v => typed v -> good (dtree v)) vs -> fold_right and True (map typed vs) -> Forall good (map dtree vs)).
  { clear v. induction 1 as [|v vs Hv _ IH]; cbn; intros T; [constructor|]. constructor; [apply Hv; tauto|apply IH; tauto]. }
  induction v using datum_ind'; intros T; cbn [typed] in T; try reflexivity.
  - unfold good. cbn. rewrite (scalar_utf8 c T). reflexivity.
  - unfold good. cbn. rewrite T. reflexivity.
  - unfold good. cbn [dtree shape emit]. apply bracket_utf8; [reflexivity| |reflexivity]. apply IHv; assumption.
  - specialize (F _ H T). unfold good. cbn [dtree emit]. apply bracket_utf8; [reflexivity| |reflexivity]. apply in_all. intros x I.
    apply bracket_utf8; [reflexivity| |reflexivity]. rewrite Forall_forall in F. apply F. exact I.
  - specialize (F _ H T). unfold good. cbn [dtree constant_size emit]. apply bracket_utf8; [reflexivity| |reflexivity].
    apply bracket_utf8; [reflexivity| |reflexivity]. apply in_all. intros x I.
    apply bracket_utf8; [reflexivity| |reflexivity]. rewrite Forall_forall in F. apply F. exact I.
  - specialize (F _ H (proj2 T)). unfold good. cbn [dtree emit]. apply bracket_utf8; [reflexivity| |reflexivity]. apply in_all. intros [[ft fi] x] I.
    apply in_map_iff in I as ([k y] & E & I). injection E as <- <- <-.
    apply bracket_utf8; [reflexivity| |reflexivity]. rewrite Forall_forall in F. apply F. eapply from_in. exact I.
  - unfold good. cbn [dtree emit]. apply bracket_utf8; [reflexivity| |reflexivity]. apply in_all. intros [k x] I.
    apply in_map_iff in I as ([k' x'] & E & I). injection E as <- <-. rewrite Forall_forall in H. destruct (H _ I) as (H1 & H2). cbn [fst snd] in H1, H2.
    assert (TT : typed k' /\ typed x').
    { clear -T I. induction es as [|[k v] es IH]; [destruct I|]. cbn in T. destruct I as [E|I]; [injection E as -> ->; tauto|apply IH; tauto]. }
    destruct TT as (T1 & T2). specialize (H1 T1). specialize (H2 T2). unfold good in H1, H2. cbn [fst snd forallb app]. rewrite ?forallb_app, H1. cbn [forallb app]. rewrite ?forallb_app, H2. reflexivity.
  - apply IHv; assumption.
  - destruct T as (D & L & T). specialize (F _ H T). cbn [dtree]. unfold data_tree.
    destruct (variant_of d i) as [[name s]|] eqn:V; [|contradiction]. destruct (style_of_decl _ _ _ _ D V) as (Sk & N).
    assert (P : forall j, good (plain_tree name j s (map dtree fs))) by (intros j; apply plain_good; try assumption; rewrite map_length; exact L).
    destruct d as [n s'|n vs]; [apply P|]. unfold good. cbn [emit]. cbn [decl_ok] in D. apply andb_true_iff in D as (D & _). apply andb_true_iff in D as (D & _).
    apply identifier_utf8 in D. apply bracket_utf8; [exact D|apply P|exact D].
Qed.

Section Text.
  Variable p32 p64 : float -> bytes.
  Variable uni : bytes -> list bytes.
  Notation debug := (debug p32 p64 uni true false).
  Notation shown_of := (shown_of p32 p64 uni).
  Definition shows (v : datum) : Prop := debug (dtree v) = shown_of v /\ hollow (dtree v) = nothing_in v.

  Lemma tuple_shown fs : Forall shows fs -> forall z,
    map (fun f : option tag * index * tree => debug (snd f)) (map (fun p => (None, place (fst p), snd p)) (from z (map dtree fs))) = map shown_of fs.
  Proof. induction 1 as [|f fs (E & _) _ IH]; intros z; [reflexivity|]. cbn [map from fst snd]. rewrite E, IH. reflexivity. Qed.
  Lemma record_shown fs : Forall shows fs -> forall names z,
    map (fun f : option tag * label * index * tree => match f with (_, l, _, v) => l_text l ++ bs ": " ++ debug v end)
      (map (fun p => let '(n, (k, t)) := p in (None, name_label n, place k, t)) (combine names (from z (map dtree fs)))) =
    map (fun nx => fst nx ++ bs ": " ++ snd nx) (combine names (map shown_of fs)).
  Proof. induction 1 as [|f fs (E & _) _ IH]; intros [|n names] z; try reflexivity. cbn [map from combine fst snd name_label l_text]. rewrite E, IH. reflexivity. Qed.

  Lemma fields_shown name i s fs : Forall shows fs -> List.length fs = arity s ->
    debug (plain_tree name i s (map dtree fs)) = shown_fields name s (map shown_of fs) /\
    echoed (plain_tree name i s (map dtree fs)) =
      match s with PTuple 0 | PNamed [] => true | PTuple 1 => existsb nothing_in fs | _ => false end /\
    hollow (plain_tree name i s (map dtree fs)) = echoed (plain_tree name i s (map dtree fs)).
  Proof.
    intros H L. destruct s as [|[|[|n]]|names].
    - repeat split.
    - destruct fs; [|discriminate]. repeat split.
    - destruct fs as [|f [|? ?]]; try discriminate. inversion H as [|? ? (E & Ho) _]; subst. cbn [plain_tree map nth FmtSpec.debug shown_fields otag_is orb commas].
      cbn [name_label l_text]. rewrite E. split; [reflexivity|]. cbn [echoed hollow existsb]. rewrite Ho, orb_false_r. auto.
    - destruct fs as [|f fs]; [discriminate|]. split; [|split; reflexivity]. cbn [plain_tree FmtSpec.debug shown_fields FmtSpec.name name_label l_text].
      rewrite (tuple_shown _ H). reflexivity.
    - destruct names as [|n names].
      { destruct fs; [|discriminate]. split; [|split; reflexivity]. cbn. rewrite <- app_assoc. reflexivity. }
      destruct fs as [|f fs]; [discriminate|]. split; [|split; reflexivity].
      cbn [plain_tree FmtSpec.debug]. rewrite (record_shown _ H (n :: names) 0%Z). cbn [shown_fields name_label l_text combine map in_braces]. rewrite <- !app_assoc. reflexivity.
  Qed.

  Lemma all_shown v : typed v -> shows v.
  Proof.
    assert (F : forall vs, Forall (fun v => typed v -> shows v) vs -> fold_right and True (map typed vs) -> Forall shows vs).
    { clear v. induction 1 as [|v vs Hv _ IH]; cbn; intros T; [constructor|]. constructor; [apply Hv; tauto|apply IH; tauto]. }
    assert (Te : forall n b s, debug (TText n [(b, s)]) = shown_str uni s).
    { intros n b s. cbn [FmtSpec.debug]. unfold pieces, esc_text, shown_str, dquote. cbn [map snd List.concat]. rewrite app_nil_r. reflexivity. }
    induction v using datum_ind'; intros T; cbn [typed] in T; try (split; reflexivity).
    - split; [apply Te|reflexivity].
    - split; [apply Te|reflexivity].
    - destruct (IHv T) as (E & Ho). split; [cbn; cbn in E; rewrite E; reflexivity|exact Ho].
    - specialize (F _ H T). split; [|destruct vs; reflexivity]. cbn [dtree FmtSpec.debug RustFmtExactProps.shown_of]. do 3 f_equal. rewrite map_map.
      apply map_ext_in. rewrite Forall_forall in F. intros a I. apply F. exact I.
    - specialize (F _ H T). split; [|destruct vs; reflexivity]. cbn [dtree constant_size FmtSpec.debug RustFmtExactProps.shown_of otag_is orb]. do 3 f_equal. rewrite map_map.
      apply map_ext_in. rewrite Forall_forall in F. intros a I. apply F. exact I.
    - destruct T as (L & T). specialize (F _ H T). split; [|destruct vs; [cbn in L; lia|reflexivity]].
      cbn [dtree FmtSpec.debug FmtSpec.name RustFmtExactProps.shown_of]. rewrite (tuple_shown _ F). reflexivity.
    - split; [|destruct es as [|[? ?] ?]; reflexivity].
      assert (M : map (fun e : tree * tree => debug (fst e) ++ bs ": " ++ debug (snd e)) (map (fun kv => match kv with (k, v) => (dtree k, dtree v) end) es) =
                  map (fun kv => match kv with (k, v) => shown_of k ++ bs ": " ++ shown_of v end) es).
      { clear F. induction es as [|[k v] es IH]; [reflexivity|]. inversion H as [|? ? (H1 & H2) H3]; subst. cbn in T. cbn [map fst snd] in *.
        destruct T as ((T1 & T2) & T3). rewrite (proj1 (H1 T1)), (proj1 (H2 T2)), (IH H3 T3). reflexivity. }
      cbn [dtree FmtSpec.debug]. rewrite M. destruct es as [|[k v] es]; reflexivity.
    - exact (IHv T).
    - destruct T as (D & L & T). specialize (F _ H T). unfold shows. cbn [dtree RustFmtExactProps.shown_of]. unfold data_tree.
      destruct (variant_of d i) as [[name s]|] eqn:V; [|contradiction].
      destruct d as [n s'|n vs].
      + destruct (fields_shown name None s fs F L) as (E & Ho & Hh). rewrite E. split; [destruct s as [|[|[|]]|[|]]; rewrite app_nil_r; reflexivity|]. rewrite Hh, Ho.
        cbn [variant_of] in V. destruct i; [|discriminate]. injection V as -> ->. cbn [nothing_in].
        destruct s as [|[|[|]]|[|]]; try reflexivity. destruct fs as [|f [|? ?]]; try discriminate. cbn [existsb]. apply orb_false_r.
      + destruct (fields_shown name (Some (place (Z.of_nat i))) s fs F L) as (E & Ho & _). split; [|reflexivity].
        cbn [FmtSpec.debug]. rewrite E, Ho. cbn [andb name_label l_text].
        destruct s as [|[|[|]]|[|]]; reflexivity.
  Qed.
End Text.

(** ** C65: the text of every datum *)

Theorem C65_text_exactly :
  forall p32 p64 uni v, typed v ->
  to_fmt_string p32 p64 uni (rust v) = Some (shown_of p32 p64 uni v) /\
  fmt_to_string p32 p64 uni (rust v) = Some (shown_of p32 p64 uni v).
Proof.
  intros p32 p64 uni v T. destruct (all_shown p32 p64 uni v T) as (E & _). destruct (rust_holds v T) as (St & _).
  assert (U : value_utf8 (rust v) = true).
  { pose proof St as X. unfold streams in X. eapply flat_utf8_back; [exact X|]. apply typed_good, T. }
  assert (R : fmt_to_string p32 p64 uni (rust v) = Some (shown_of p32 p64 uni v)) by (rewrite (C30_text _ _ _ _ _ St U), E; reflexivity).
  split; [|exact R]. destruct (C48_to_string_never_panics p32 p64 uni (rust v)) as (s & A & B). rewrite A. rewrite (B (no_failure _ _ St)) in R. exact R.
Qed.

Definition odd_sample : datum :=
  VVec [VData tagged_decl 0 [VSome (VData (PStruct (bs "N") (PTuple 1)) 0 [VData (PStruct (bs "U") (PTuple 0)) 0 []])]; VData tagged_decl 2 [];
        VMap [(VChar 97, VTup [VF64 one])]; VStr (bs "it's")].
Example C65_exact_sample : typed odd_sample /\
  shown_of (fun _ => bs "1") (fun _ => bs "1") (fun c => [c]) odd_sample =
  bs "[A(Some(N(U())))E, C {}E, { ""a"": (1) }, ""it\'s""]".
Proof.
  split; [|vm_compute; reflexivity].
  cbn; repeat match goal with |- _ /\ _ => split end; try exact I; try lia; try reflexivity. left. lia.
Qed.

Print Assumptions C65_text_exactly.
