(** * FlatRustProps: structs with [#[sval(flatten)]] fields (C82) *)

From Verif Require Import Base Event Tree FlatProofs LowerModel LowerSpec JsonModel JsonGrammar JsonSpec JsonProofs JsonProps JsonTextSpec JsonTextProps
  DataModel DataProofs NestedModel NestedSpec FlattenModel FlattenSpec FlattenProps DeriveModel DeriveSpec DeriveProps StdModel StdSpec StdProps
  RustModel RustSpec RustProofs RustJsonProps FlatRustModel FlatRustSpec FlatRustProofs.
From Verif Require SerdeModel SerdeErrModel SerdeTextModel SerdeTextSpec SerdeTextProps.
Local Open Scope Z_scope.

(** ** A struct with flattened fields is the struct written out by hand *)

(** The full claim: no stream can tell them apart. *)
Definition C82_written_out : Prop :=
  forall r64 name fs, ftyped (FStruct name fs) -> flattened_all flattens_fine (FStruct name fs) = true -> fa_struct (FStruct name fs) = true ->
  forall W (out : W -> ev -> res W) w,
  stream_value out w (frust r64 (FStruct name fs)) = stream_value out w (frust r64 (by_hand name fs)).

(** What holds of the fields holds of what is hoisted. *)
Section Hoisted.
  Variable p : fdatum -> bool.
  Definition fields_good (m : member_at) : Prop := ftyped (m_value m) /\ flattened_all p (m_value m) = true.
  Lemma numbered_good ms : Forall (fun lv => typed (snd lv)) ms -> forall pos, Forall fields_good (numbered pos ms).
  Proof. induction 1 as [|[l v] ms H _ IH]; intros pos; cbn [numbered]; constructor; [|apply IH]. split; [exact H|reflexivity]. Qed.
  Lemma combine_typed {A} (names : list A) fs : fold_right and True (map typed fs) -> Forall (fun lv => typed (snd lv)) (combine names fs).
  Proof. revert names. induction fs as [|f fs IH]; intros [|n names] H; cbn [combine]; constructor; cbn in H; [tauto|apply IH; tauto]. Qed.
  Lemma plain_good v : typed v -> forall pos, Forall fields_good (plain_members pos v).
  Proof.
    induction v using datum_ind'; intros T pos; cbn [typed plain_members] in *; try apply Forall_nil; auto.
    - apply numbered_good. rewrite Forall_map. cbn [snd]. clear H. induction es as [|[k v] es IH]; cbn in T; constructor; [tauto|apply IH; tauto].
    - destruct T as (_ & L & T). destruct d as [n [|[|[|k]]|names]|n vs]; try apply Forall_nil.
      + destruct fs as [|v [|? ?]]; try apply Forall_nil. inversion H; subst. apply H2. apply T.
      + apply numbered_good, combine_typed. exact T.
      + destruct (nth_error vs i) as [[vn [|[|[|k]]|names]]|]; try (destruct fs; apply Forall_nil).
        * destruct fs as [|v [|? ?]]; try apply Forall_nil. constructor; [|constructor]. split; [apply T|reflexivity].
        * apply numbered_good, combine_typed. exact T.
  Qed.
  Lemma members_good v : ftyped v -> flattened_all p v = true -> forall pos, Forall fields_good (members pos v).
  Proof.
    induction v using fdatum_ind'; intros T A pos; cbn [ftyped flattened_all members] in *; [apply plain_good; exact T|auto|].
    destruct T as (_ & _ & _ & T). apply all_fields in T. revert pos.
    induction fs as [|[[n b] v] fs IH]; intros pos; cbn [written_with]; [constructor|]. inversion H; inversion T; subst. cbn [forallb fst snd] in *.
    apply andb_true_iff in A as (A1 & A2). apply andb_true_iff in A1 as (_ & A3). apply Forall_app. split; [|apply IH; assumption].
    destruct b; [apply H2; tauto|]. constructor; [|constructor]. split; [unfold m_value; cbn [snd]; tauto|exact A3].
  Qed.
End Hoisted.

(** Structs only: names of fields, one position after the other. *)
Definition plain_place (pos : Z) (ms : list member_at) : Prop :=
  Forall (fun m => exists n, identifier n = true /\ m_label m = field_label n) ms /\ map m_pos ms = map fst (from pos ms).
Lemma place_app pos ms ms' : plain_place pos ms -> plain_place (after pos ms) ms' -> plain_place pos (ms ++ ms').
Proof.
  intros (A & B) (C & D). split; [apply Forall_app; auto|]. clear A C. revert pos B D. induction ms as [|m ms IH]; intros pos B D; [exact D|].
  cbn [app map from fst after] in *. injection B as B1 B2. rewrite B1. f_equal. apply IH; [exact B2|]. rewrite <- B1. exact D.
Qed.
Lemma place_numbered names vs : forallb identifier names = true -> forall pos, plain_place pos (numbered pos (combine (map field_label names) vs)).
Proof.
  revert vs. induction names as [|n names IH]; intros [|v vs] I pos; cbn [map combine numbered]; try (split; [constructor|reflexivity]).
  cbn [forallb] in I. apply andb_true_iff in I as (I1 & I2). destruct (IH vs I2 (pos + 1)) as (A & B). split.
  - constructor; [exists n; split; [exact I1|reflexivity]|exact A].
  - cbn [map from fst]. f_equal. exact B.
Qed.
Lemma plain_struct_place v : typed v -> a_struct v = true -> forall pos, plain_place pos (plain_members pos v).
Proof.
  induction v using datum_ind'; intros T A pos; cbn [typed a_struct plain_members] in *; try discriminate A; auto.
  - split; [constructor|reflexivity].
  - destruct T as (D & L & T). destruct d as [n [|[|[|k]]|names]|n vs]; try discriminate A.
    + destruct fs as [|v [|? ?]]; try discriminate A. inversion H; subst. apply H2; [apply T|exact A].
    + apply place_numbered. cbn [decl_ok style_ok] in D. unfold style_ok in D. apply andb_true_iff in D as (_ & D). apply andb_true_iff in D as (_ & D). exact D.
Qed.
Lemma struct_place v : ftyped v -> fa_struct v = true -> forall pos, plain_place pos (members pos v).
Proof.
  induction v using fdatum_ind'; intros T A pos; cbn [ftyped fa_struct members] in *; [apply plain_struct_place; assumption|auto|].
  destruct T as (_ & _ & _ & T). apply all_fields in T. revert pos.
  induction fs as [|[[n b] v] fs IH]; intros pos; cbn [written_with]; [split; [constructor|reflexivity]|]. inversion H; inversion T; subst. cbn [forallb fst snd] in *.
  apply andb_true_iff in A as (A1 & A2). apply place_app; [|apply IH; assumption].
  destruct b; [apply H2; tauto|]. split; [|reflexivity]. constructor; [|constructor]. exists n. split; [tauto|reflexivity].
Qed.
Lemma after_place ms : forall pos, plain_place pos ms -> after pos ms = pos + Z.of_nat (List.length ms).
Proof.
  induction ms as [|m ms IH]; intros pos (A & B); [cbn; lia|]. cbn [after map from fst List.length] in *. injection B as B1 B2. inversion A; subst.
  rewrite IH; [|split; [assumption|exact B2]]. lia.
Qed.
(** Written out, everything is where it was. *)
Lemma hand_written ms : forall pos, plain_place pos ms ->
  written pos (map (fun m => (l_text (m_label m), false, m_value m)) ms) = ms.
Proof.
  unfold written. induction ms as [|[[k l] v] ms IH]; intros pos (A & B); [reflexivity|]. cbn [map from fst] in B. injection B as B1 B2.
  inversion A as [|? ? (n & _ & E) A']; subst. clear A. unfold m_pos, m_label in *. cbn [fst snd] in *. subst.
  cbn [map written_with m_label fst snd field_label l_text app after]. unfold m_pos. cbn [fst].
  rewrite IH; [reflexivity|]. split; assumption.
Qed.

(** Missing: the number of fields, which the stream is told of only if nothing is
    flattened. *)
Theorem C82_written_out_partial :
  forall r64 name fs, ftyped (FStruct name fs) -> flattened_all flattens_fine (FStruct name fs) = true -> fa_struct (FStruct name fs) = true ->
  existsb (fun f => snd (fst f)) fs = true ->
  exists es,
    flat (frust r64 (FStruct name fs)) false = (ERecTupBegin None (Some (field_label name)) None None :: es, true) /\
    flat (frust r64 (by_hand name fs)) false =
      (ERecTupBegin None (Some (field_label name)) None (Some (N.of_nat (List.length (written 0 fs)))) :: es, true).
Proof.
  intros r64 name fs T A S B.
  pose proof (struct_place _ T S 0) as P. pose proof (members_good _ _ T A 0) as G. cbn [members] in P, G. fold written in P, G.
  assert (T' : ftyped (by_hand name fs)).
  { destruct T as (I & _ & F & _). unfold by_hand. cbn [ftyped]. rewrite (hand_written _ _ P). rewrite map_length. split; [exact I|]. split; [|split; [exact F|]].
    - unfold sized. rewrite (after_place _ _ P), Z.add_0_l in F. exact F.
    - destruct P as (P & _). clear - P G. induction P as [|[[k l] v] ms (n & In & E) P IH]; [exact I|]. inversion G as [|? ? (Gt & _) G']; subst. unfold m_label, m_value in *. cbn [map fold_right fst snd] in *.
      split; [|apply IH; assumption]. subst l. split; assumption. }
  assert (A' : flattened_all flattens_fine (by_hand name fs) = true).
  { unfold by_hand. cbn [flattened_all]. apply forallb_forall. intros f If. apply in_map_iff in If as (m & <- & Im). cbn [andb]. rewrite Forall_forall in G. apply (G m Im). }
  destruct (all_good r64 _ T A) as [(H & _) _ _ _ _]. destruct (all_good r64 _ T' A') as [(H' & _) _ _ _ _].
  unfold streams in H, H'.
  assert (Ls : forall name fs, ftyped (FStruct name fs) -> flattened_all flattens_fine (FStruct name fs) = true ->
    ftree r64 (FStruct name fs) = TRecTup None (Some (name_label name)) None (size_hint fs) (map (member_tree r64) (written 0 fs))).
  { clear. intros name fs T A. apply fstruct_tree; [|apply T]. destruct T as (_ & _ & _ & T). apply all_fields in T. cbn [flattened_all] in A. rewrite forallb_forall in A.
    rewrite Forall_forall in *. intros [[n b] v] If Bb. specialize (T _ If). specialize (A _ If). cbn [fst snd] in *. subst b. apply andb_true_iff in A as (A1 & A2).
    unfold flattens_fine in A1. apply andb_true_iff in A1 as (A1 & _). apply andb_true_iff in A1 as (A1 & A3). apply g_lands; [apply all_good; tauto|exact A1|apply negb_true_iff; exact A3]. }
  rewrite (Ls _ _ T A) in H. unfold by_hand in *. rewrite (Ls _ _ T' A'), (hand_written _ _ P) in H'. rewrite H, H'. cbn [emit]. unfold size_hint at 1. rewrite B.
  eexists. split; [reflexivity|]. unfold size_hint. replace (existsb _ (map _ (written 0 fs))) with false; [unfold len; rewrite map_length; reflexivity|].
  symmetry. generalize (written 0 fs). clear. induction l; [reflexivity|]. cbn. exact IHl.
Qed.

(** Exactly what is streamed, whatever is flattened: the fields of the struct written
    out, each with its name, position and own calls. *)
Theorem C82_exact :
  forall r64 name fs, ftyped (FStruct name fs) -> flattened_all flattens_fine (FStruct name fs) = true ->
  flat (frust r64 (FStruct name fs)) false =
  (ERecTupBegin None (Some (field_label name)) None
     (if existsb (fun f => snd (fst f)) fs then None else Some (N.of_nat (List.length fs))) ::
   flat_map (fun m => ERecTupValBegin None (m_label m) (MkIndex (m_pos m) (Some VALUE_OFFSET)) ::
                      fst (flat (frust r64 (m_value m)) false) ++
                      [ERecTupValEnd None (m_label m) (MkIndex (m_pos m) (Some VALUE_OFFSET))]) (written 0 fs) ++
   [ERecTupEnd None (Some (field_label name)) None], true).
Proof.
  intros r64 name fs T A. pose proof (members_good _ _ T A 0) as G. destruct (all_good r64 _ T A) as [(H & _) _ _ _ _]. unfold streams in H. rewrite H. f_equal.
  rewrite fstruct_tree; [| |apply T].
  - cbn [emit]. unfold size_hint. f_equal. f_equal. rewrite flat_map_map. cbn [members] in G. fold written in G.
    clear - G. induction G as [|m ms (Tm & Am) _ IH]; [reflexivity|]. cbn [flat_map]. rewrite IH. f_equal. unfold member_tree.
    destruct (all_good r64 _ Tm Am) as [(H & _) _ _ _ _]. unfold streams in H. rewrite H. reflexivity.
  - destruct T as (_ & _ & _ & T). apply all_fields in T. cbn [flattened_all] in A. rewrite forallb_forall in A.
    rewrite Forall_forall in *. intros [[n b] v] If Bb. specialize (T _ If). specialize (A _ If). cbn [fst snd] in *. subst b. apply andb_true_iff in A as (A1 & A2).
    unfold flattens_fine in A1. apply andb_true_iff in A1 as (A1 & _). apply andb_true_iff in A1 as (A1 & A3). apply g_lands; [apply all_good; tauto|exact A1|apply negb_true_iff; exact A3].
Qed.

(** [struct Request { id: u64, #[sval(flatten)] page: Page }] with
    [struct Page { limit: u64, offset: u64 }]. *)
Definition page : fdatum := FPlain (VData (PStruct (bs "Page") (PNamed [bs "limit"; bs "offset"])) 0 [VInt U64 10; VInt U64 20]).
Definition request : fdatum := FStruct (bs "Request") [(bs "id", false, FPlain (VInt U64 7)); (bs "page", true, page)].
Lemma request_typed : ftyped request.
Proof. repeat split. Qed.
Theorem C82_written_out_refuted : ~ C82_written_out.
Proof.
  intros H. specialize (H (fun _ => []) _ _ request_typed eq_refl eq_refl _ keep []). vm_compute in H. discriminate H.
Qed.
(** Three fields, numbered; how many is not said. *)
Example C82_request :
  fst (flat (frust (fun _ => []) request) false) =
  let f n k z := [ERecTupValBegin None (field_label n) (place k); EInt U64 z; ERecTupValEnd None (field_label n) (place k)] in
  ERecTupBegin None (Some (field_label (bs "Request"))) None None ::
  f (bs "id") 0 7 ++ f (bs "limit") 1 10 ++ f (bs "offset") 2 20 ++ [ERecTupEnd None (Some (field_label (bs "Request"))) None].
Proof. vm_compute. reflexivity. Qed.

(** ** [sval_serde] refuses every one *)
Theorem C82_serde_refuses :
  forall r64 name fs, ftyped (FStruct name fs) -> flattened_all flattens_fine (FStruct name fs) = true ->
  existsb (fun f => snd (fst f)) fs = true ->
  exists depth, forall n, le depth n -> forall S custom k,
  SerdeTextModel.tto_serialize S custom n (frust r64 (FStruct name fs)) k =
  SerdeErrModel.RErr (custom (bs "the value is invalid: missing struct len")).
Proof.
  intros r64 name fs T A B. destruct (all_good r64 _ T A) as [(H & Wh) _ _ _ _].
  assert (E : exists ms, ftree r64 (FStruct name fs) = TRecTup None (Some (name_label name)) None None ms).
  { eexists. rewrite fstruct_tree; [unfold size_hint; rewrite B; reflexivity| |apply T]. destruct T as (_ & _ & _ & T). apply all_fields in T. cbn [flattened_all] in A. rewrite forallb_forall in A.
    rewrite Forall_forall in *. intros [[n b] v] If Bb. specialize (T _ If). specialize (A _ If). cbn [fst snd] in *. subst b. apply andb_true_iff in A as (A1 & A2).
    unfold flattens_fine in A1. apply andb_true_iff in A1 as (A1 & _). apply andb_true_iff in A1 as (A1 & A3). apply g_lands; [apply all_good; tauto|exact A1|apply negb_true_iff; exact A3]. }
  destruct E as (ms & E). rewrite E in *. set (t := TRecTup None (Some (name_label name)) None None ms) in *.
  exists (NestedSpec.levels (mirror t)). intros n L S custom k.
  destruct (NestedWhole.whole_atree _ t Wh H) as (a & Ea & _ & Ta). rewrite Ea.
  assert (M : mirror (tree_of a) = mirror t) by (rewrite <- Ta; symmetry; apply NestedProofs.stree_mirror). rewrite <- M in L.
  destruct (SerdeTextProps.C81_exact S custom a n k L) as (o & To & ->). rewrite M in To.
  cbn [t mirror SerdeTextSpec.tells] in To. destruct To as (cs & _ & ->). reflexivity.
Qed.

(** ** JSON *)
Section Json.
  Variable r32 r64 rk : float -> bytes.
  Notation compact := (compact r32 r64).
  Notation ftree := (ftree rk).

  Definition text_at (m : member_at) : bytes := member (l_text (m_label m)) (compact false (ftree (m_value m))).
  Definition fine_at (m : member_at) : Prop := ident_ok (m_label m) = true /\ ordinary (ftree (m_value m)) /\ safe (ftree (m_value m)).
  Lemma numbered_json ms : Forall (fun lv => ident_ok (fst lv) = true /\ right r32 r64 (snd lv)) ms -> forall pos,
    Forall fine_at (numbered pos ms) /\
    map text_at (numbered pos ms) = map (fun lv => member (l_text (fst lv)) (serde_json r32 r64 (snd lv))) ms.
  Proof.
    induction 1 as [|[l v] ms (I & O & S & C) _ IH]; intros pos; cbn [numbered map]; [split; [constructor|reflexivity]|].
    destruct (IH (pos + 1)) as (A & B). cbn [fst snd] in *. split; [constructor; [repeat split; assumption|exact A]|]. rewrite B. f_equal.
    unfold text_at, m_label, m_value. cbn [fst snd FlatRustProofs.ftree]. rewrite C. reflexivity.
  Qed.
  Lemma all_right_list vs : fold_right and True (map typed vs) -> forallb serde_accepts vs = true -> existsb unit_struct vs = false -> existsb named_entry vs = false ->
    Forall (right r32 r64) vs.
  Proof.
    induction vs as [|v vs IH]; cbn; intros T A U N; constructor.
    - apply andb_true_iff in A. apply orb_false_iff in U, N. apply all_right; tauto.
    - apply andb_true_iff in A. apply orb_false_iff in U, N. apply IH; tauto.
  Qed.
  Lemma combine_json names vs pos : forallb identifier names = true -> Forall (right r32 r64) vs ->
    Forall fine_at (numbered pos (combine (map field_label names) vs)) /\
    map text_at (numbered pos (combine (map field_label names) vs)) = map (fun nv => member (fst nv) (serde_json r32 r64 (snd nv))) (combine names vs).
  Proof.
    intros I R. assert (F : Forall (fun lv => ident_ok (fst lv) = true /\ right r32 r64 (snd lv)) (combine (map field_label names) vs)).
    { revert names I. induction R as [|v vs Rv R IH]; intros [|n names] I; cbn [map combine]; constructor; cbn [forallb] in I; apply andb_true_iff in I as (I1 & I2); [|auto].
      split; [apply (identifier_ok n I1)|exact Rv]. }
    destruct (numbered_json _ F pos) as (A & ->). split; [exact A|]. clear. revert names. induction vs as [|v vs IH]; intros [|n names]; try reflexivity. cbn [map combine fst snd]. f_equal. apply IH.
  Qed.
  Lemma plain_json v : typed v -> serde_accepts v = true -> unit_struct v = false -> named_entry v = false ->
    plain_flattens v = true -> struct_variant v = false ->
    forall pos, Forall fine_at (plain_members pos v) /\ map text_at (plain_members pos v) = plain_added r32 r64 v.
  Proof.
    induction v using datum_ind'; intros T A U N F V pos; cbn [plain_flattens] in F; try discriminate F.
    - split; [constructor|reflexivity].
    - cbn [plain_members plain_added]. apply IHv; assumption.
    - cbn [plain_members plain_added typed serde_accepts unit_struct named_entry] in *.
      assert (G : Forall (fun lv => ident_ok (fst lv) = true /\ right r32 r64 (snd lv)) (map (fun kv => (entry_label (key_of (fst kv)), snd kv)) es)).
      { rewrite Forall_map. clear H F V. induction es as [|[k v] es IH]; [constructor|]. cbn [map fold_right forallb existsb fst snd] in *.
        apply andb_true_iff in A as (A1 & A). apply andb_true_iff in A1 as (_ & A1). apply orb_false_iff in U as (U1 & U). apply orb_false_iff in U1 as (_ & U1).
        apply orb_false_iff in N as (N1 & N). apply orb_false_iff in N1 as (_ & N1). constructor; [|apply IH; tauto]. cbn [fst snd]. split; [reflexivity|]. apply all_right; tauto. }
      destruct (numbered_json _ G pos) as (B & ->). split; [exact B|]. rewrite map_map. reflexivity.
    - cbn [plain_members plain_added]. apply IHv; assumption.
    - cbn [typed serde_accepts unit_struct named_entry struct_variant] in *. destruct T as (D & L & T).
      assert (U' : existsb unit_struct fs = false) by (destruct d as [n [| |]|]; try exact U; discriminate).
      pose proof (all_right_list fs T A U' N) as R. destruct d as [n [|[|[|k]]|names]|n vs]; try discriminate F; cbn [plain_members plain_added].
      + destruct fs as [|v [|? ?]]; try discriminate F. inversion H; subst. cbn in T, A, U', N. rewrite andb_true_r in A. rewrite orb_false_r in U', N. apply H2; tauto.
      + apply combine_json; [|exact R]. cbn [decl_ok] in D. unfold style_ok in D. apply andb_true_iff in D as (_ & D). apply andb_true_iff in D as (_ & D). exact D.
      + cbn [variant_of] in L. destruct (nth_error vs i) as [[vn s]|] eqn:E; [|contradiction]. destruct (style_of_decl (PEnum n vs) i vn s D E) as (_ & Iv).
        destruct s as [|[|[|k]]|names]; try discriminate F; [|discriminate V].
        cbn [arity] in L. destruct fs as [|v [|? ?]]; try discriminate L. inversion R as [|? ? (O & S & C) _]; subst. split.
        * constructor; [|constructor]. repeat split; [apply (identifier_ok vn Iv)|exact O|exact S].
        * cbn [map json_fields nth]. unfold text_at, m_label, m_value. cbn [fst snd field_label l_text FlatRustProofs.ftree]. rewrite C. reflexivity.
  Qed.

  (** As in C63, and struct variants are not flattened. *)
  Definition like_serde (v : datum) : bool := serde_accepts v && negb (unit_struct v) && negb (named_entry v).
  Definition flattens_like_serde (v : fdatum) : bool := flattens_fine v && negb (fstruct_variant v).
  Lemma weaken p q v : (forall v, p v = true -> q v = true) -> flattened_all p v = true -> flattened_all q v = true.
  Proof.
    intros W. induction v using fdatum_ind'; cbn [flattened_all]; auto. induction H as [|[[n b] v] fs Hv _ IH]; cbn [forallb snd] in *; [auto|].
    rewrite !andb_true_iff. intros ((A & B) & C). split; [split|auto]; [|auto]. destruct b; auto.
  Qed.
  Record fright (v : fdatum) : Prop := {
    fr_ordinary : ordinary (ftree v);
    fr_safe : safe (ftree v);
    fr_text : compact false (ftree v) = fst (flat_json r32 r64 v);
    fr_members : flattens_like_serde v = true -> forall pos, Forall fine_at (members pos v) /\ map text_at (members pos v) = snd (flat_json r32 r64 v) }.
  Lemma like_serde_right v : typed v -> like_serde v = true -> right r32 r64 v.
  Proof. unfold like_serde. rewrite !andb_true_iff, !negb_true_iff. intros T ((A & B) & C). apply all_right; assumption. Qed.
  Lemma all_fright v : ftyped v -> plain_all like_serde v = true -> flattened_all flattens_like_serde v = true -> fright v.
  Proof.
    induction v using fdatum_ind'; intros T P A.
    - cbn [ftyped plain_all] in *. destruct (like_serde_right v T P) as (O & S & C). constructor; try assumption.
      unfold flattens_like_serde, flattens_fine. cbn [serde_flattens fstruct_variant fwrapped_enum members flat_json snd].
      rewrite !andb_true_iff, !negb_true_iff. intros (((F & _) & _) & V). unfold like_serde in P. rewrite !andb_true_iff, !negb_true_iff in P. destruct P as ((P1 & P2) & P3).
      apply plain_json; assumption.
    - cbn [ftyped plain_all flattened_all] in *. destruct (IHv T P A) as [O S C M]. constructor.
      + split; [reflexivity|exact O].
      + exact S.
      + exact C.
      + intros F. cbn [members flat_json]. apply M. unfold flattens_like_serde, flattens_fine in *. cbn [serde_flattens fwrapped_enum fstruct_variant fmapped] in F.
        rewrite !andb_true_iff, !negb_true_iff in *. destruct F as (((F1 & F2) & F3) & F4). repeat split; try assumption. apply not_fenum. exact F2.
    - assert (ET : ftree (FStruct name fs) = TRecTup None (Some (name_label name)) None (size_hint fs) (map (member_tree rk) (written 0 fs))).
      { apply fstruct_tree; [|apply T]. pose proof T as (_ & _ & _ & T'). apply all_fields in T'. cbn [flattened_all] in A. rewrite forallb_forall in A.
        rewrite Forall_forall in *. intros [[n b] v] If Bb. specialize (T' _ If). specialize (A _ If). cbn [fst snd] in *. subst b. apply andb_true_iff in A as (A1 & A2).
        unfold flattens_like_serde, flattens_fine in A1. rewrite !andb_true_iff, !negb_true_iff in A1. destruct A1 as (((A1 & A3) & A4) & A5).
        apply g_lands; [apply all_good; [tauto|]|exact A1|exact A3]. eapply weaken; [|exact A2]. intros w. unfold flattens_like_serde. rewrite andb_true_iff. tauto. }
      assert (M : forall pos, Forall fine_at (written pos fs) /\ map text_at (written pos fs) = snd (flat_json r32 r64 (FStruct name fs))).
      { clear ET. destruct T as (_ & _ & _ & T). apply all_fields in T. cbn [plain_all flattened_all flat_json snd] in *. unfold written.
        induction fs as [|[[n b] v] fs IH]; intros pos; cbn [written_with flat_map forallb] in *; [split; [constructor|reflexivity]|].
        inversion H as [|? ? Hv H']; inversion T as [|? ? (In & Tv) T']; subst. cbn [fst snd] in *. apply andb_true_iff in P as (P1 & P2). apply andb_true_iff in A as (A1 & A2). apply andb_true_iff in A1 as (A1 & A3).
        destruct (Hv Tv P1 A3) as [O S C M].
        assert (Q : Forall fine_at (if b then members pos v else [(pos, field_label n, v)]) /\
                    map text_at (if b then members pos v else [(pos, field_label n, v)]) = (let (x, added) := flat_json r32 r64 v in if b then added else [member n x])).
        { destruct (flat_json r32 r64 v) as [x added]. cbn [fst snd] in *. destruct b; [apply M; exact A1|]. split.
          - constructor; [|constructor]. repeat split; [apply (identifier_ok n In)|exact O|exact S].
          - cbn [map]. unfold text_at, m_label, m_value. cbn [fst snd field_label l_text]. rewrite C. reflexivity. }
        destruct Q as (Q1 & Q2). destruct (IH H' T' P2 A2 (after pos (if b then members pos v else [(pos, field_label n, v)]))) as (J1 & J2).
        split; [apply Forall_app; split; assumption|]. rewrite map_app, Q2, J2. reflexivity. }
      destruct (M 0) as (F & E). constructor.
      + rewrite ET. apply ordinary_rectup. rewrite Forall_map. eapply Forall_impl; [|exact F]. intros m (I & O & _). split; assumption.
      + rewrite ET. apply safe_rectup. rewrite Forall_map. eapply Forall_impl; [|exact F]. intros m (_ & _ & S). exact S.
      + rewrite ET. cbn [JsonTextSpec.compact under]. rewrite map_map.
        change (object (map text_at (written 0 fs)) = fst (flat_json r32 r64 (FStruct name fs))). rewrite E. reflexivity.
      + intros _. exact M.
  Qed.
End Json.

(** The full claim: [sval_json] writes what [serde_json] writes with
    [#[serde(flatten)]] on the same fields; [like_serde] are the conditions of C63. *)
Definition C82_json : Prop :=
  forall r32 r64, json_printer r32 -> json_printer r64 ->
  forall v, ftyped v -> plain_all like_serde v = true -> flattened_all serde_flattens v = true ->
  json_to_string r32 r64 (frust r64 v) = SOk (fst (flat_json r32 r64 v)).

(** Missing: flattened struct variants, enums in [Some] or a newtype, and flattened
    values with maps inside. *)
Theorem C82_json_partial :
  forall r32 r64, json_printer r32 -> json_printer r64 ->
  forall v, ftyped v -> plain_all like_serde v = true -> flattened_all flattens_like_serde v = true ->
  json_to_string r32 r64 (frust r64 v) = SOk (fst (flat_json r32 r64 v)).
Proof.
  intros r32 r64 P32 P64 v T P A. destruct (all_fright r32 r64 r64 v T P A) as [O S C _]. rewrite <- C.
  apply C20_compact_text_partial; try assumption; [|apply ordinary_writable; assumption].
  apply all_good; [exact T|]. eapply weaken; [|exact A]. intros w. unfold flattens_like_serde. rewrite andb_true_iff. tauto.
Qed.

(** [struct S { a: u8, #[sval(flatten)] b: .., c: u8 }]. *)
Definition one_flat (v : datum) : fdatum :=
  FStruct (bs "S") [(bs "a", false, FPlain (VInt U8 1)); (bs "b", true, FPlain v); (bs "c", false, FPlain (VInt U8 2))].
(** [enum Shape { Dot(u8), Circle { r: u8 } }]. *)
Definition shapes : decl := PEnum (bs "Shape") [(bs "Dot", PTuple 1); (bs "Circle", PNamed [bs "r"])].
Definition dot : datum := VData shapes 0 [VInt U8 9].
Definition circle : datum := VData shapes 1 [VInt U8 9].
Theorem C82_json_refuted : ~ C82_json.
Proof.
  intros H. specialize (H _ _ exact_print_json exact_print_json (one_flat circle)).
  assert (T : ftyped (one_flat circle)) by (repeat split). specialize (H T eq_refl eq_refl). vm_compute in H. discriminate H.
Qed.
Definition sval_text (v : fdatum) : sresult := json_to_string exact_print exact_print (frust exact_print v).
Definition serde_text (v : fdatum) : bytes := fst (flat_json exact_print exact_print v).
(** A struct variant loses its name. *)
Example C82_struct_variant :
  sval_text (one_flat circle) = SOk (bs "{""a"":1,""r"":9,""c"":2}") /\
  serde_text (one_flat circle) = bs "{""a"":1,""Circle"":{""r"":9},""c"":2}".
Proof. split; vm_compute; reflexivity. Qed.
(** A map inside is not JSON. *)
Definition with_map : datum := VData (PStruct (bs "In") (PNamed [bs "m"])) 0 [VMap [(VStr (bs "k"), VInt U8 3)]].
Example C82_nested_map :
  sval_text (one_flat with_map) = SOk (bs "{""a"":1,""m"":{""k,""3},""c"":2}") /\
  serde_text (one_flat with_map) = bs "{""a"":1,""m"":{""k"":3},""c"":2}".
Proof. split; vm_compute; reflexivity. Qed.
(** An enum in [Some] panics. *)
Example C82_some_enum : exists m, derive (fdef (bs "S") [(bs "b", true, FPlain (VSome dot))]) = Some m /\
  derived_stream keep exact_print m 0 [rust (VSome dot)] [] = Panic /\
  serde_text (FStruct (bs "S") [(bs "b", true, FPlain (VSome dot))]) = bs "{""Dot"":9}".
Proof. eexists. split; [reflexivity|]. split; vm_compute; reflexivity. Qed.

(** A struct within a struct, a map, an option and a newtype variant, all flattened. *)
Definition everything : fdatum :=
  FStruct (bs "Outer")
    [(bs "x", true, FStruct (bs "Inner") [(bs "a", false, FPlain (VBool true)); (bs "p", true, page); (bs "r", false, request)]);
     (bs "y", true, FPlain (VMap [(VStr (bs "say ""hi"""), VVec [VInt U8 1]); (VInt U8 3, VNone)]));
     (bs "z", true, FPlain VNone);
     (bs "s", true, FSome (FStruct (bs "Q") [(bs "q", false, FPlain (VStr (bs "t")))]));
     (bs "w", true, FPlain dot);
     (bs "b", false, FPlain circle)].
Example C82_applies :
  ftyped everything /\ plain_all like_serde everything = true /\ flattened_all flattens_like_serde everything = true /\
  sval_text everything =
    SOk (bs "{""a"":true,""limit"":10,""offset"":20,""r"":{""id"":7,""limit"":10,""offset"":20},""say \""hi\"""":[1],""3"":null,""q"":""t"",""Dot"":9,""b"":{""Circle"":{""r"":9}}}") /\
  map (fun m => (m_pos m, l_text (m_label m))) (written 0 (match everything with FStruct _ fs => fs | _ => [] end)) =
    [(0, bs "a"); (1, bs "limit"); (2, bs "offset"); (3, bs "r"); (4, bs "say ""hi"""); (5, bs "3"); (6, bs "q"); (7, bs "Dot"); (8, bs "b")].
Proof. split; [repeat split|]. repeat split; vm_compute; reflexivity. Qed.
Example C82_serde_applies :
  SerdeTextModel.tto_serialize SerdeTextProps.fussy (fun e => e) 5 (frust exact_print request) tt =
  SerdeErrModel.RErr (bs "the value is invalid: missing struct len").
Proof. vm_compute. reflexivity. Qed.

Print Assumptions C82_written_out_partial.
Print Assumptions C82_written_out_refuted.
Print Assumptions C82_exact.
Print Assumptions C82_serde_refuses.
Print Assumptions C82_json_partial.
Print Assumptions C82_json_refuted.
