(** * NestedGivenProps: C35, what a recursive stream is handed

    [NestedProps.C35_one_level_partial] says that every child that arrives
    mirrors the child that was streamed.  Here: the very value that was passed
    to [Stream::value] or [Stream::value_computed] arrives, and it arrives as
    borrowed or as computed accordingly; and a text or a binary value arrives
    borrowed exactly when it is in one piece. *)

From Verif Require Import Base Event Tree LowerModel DataModel FragModel BufferModel BufferSpec BufferProofs NestedModel NestedSpec NestedProofs NestedWhole NestedProps.

(** ** Specification

    [BufferSpec.borrowed_whole fs]: the text streamed as fragments [fs] can be
    borrowed as a whole when its last fragment is borrowed and the others are
    empty, or when there are none. *)
(** The same fragments through [stream_computed]. *)
Definition all_computed (fs : list (bool * bytes)) : list (bool * bytes) := map (fun f => (false, snd f)) fs.

(** A value [cs] passed with [value] ([true]) or with [value_computed]. *)
Definition pass (x : arg) : call := if fst x then CV (snd x) else CVC (snd x).

(** ** Texts and binary values *)
Lemma borrowed_cow fs : is_borrowed (frag_cow fs) = borrowed_whole fs.
Proof. rewrite frag_cow_spec. destruct (borrowed_whole fs); reflexivity. Qed.
Lemma frags_computed fs : frags_as true fs = all_computed fs.
Proof. reflexivity. Qed.
Lemma frags_plain fs : frags_as false fs = fs.
Proof. unfold frags_as. induction fs as [|[b s] fs IH]; cbn; [|rewrite IH]; reflexivity. Qed.

Lemma settled_leaf S (o : outcome (n_ok S)) : settled (try_catch (settle (MkFS (S := S) None (SAny (S := S))) (x <- o ;; OOk (SAny, Some x)))) = o.
Proof. destruct o; reflexivity. Qed.

Theorem C35_texts_borrowed : forall S n fs,
  nested_stream S (CE (ETextBegin n) :: map (fun f : bool * bytes => CE (if fst f then ETextFrag (snd f) else ETextFragC (snd f))) fs ++ [CE ETextEnd])
    = n_text S (borrowed_whole fs) (content fs) /\
  nested_stream_computed S (CE (ETextBegin n) :: map (fun f : bool * bytes => CE (if fst f then ETextFrag (snd f) else ETextFragC (snd f))) fs ++ [CE ETextEnd])
    = n_text S (borrowed_whole (all_computed fs)) (content fs).
Proof.
  intros S n fs.
  assert (X : forall comp, nested_value (S := S) comp (acalls (AText n fs)) = n_text S (borrowed_whole (frags_as comp fs)) (content fs)).
  { intros comp. unfold nested_value, fs_new. fold (settled (fs_calls (S := S) (acalls (AText n fs)) comp (MkFS None SAny))).
    rewrite fs_text. cbv zeta. cbn [state_value]. rewrite settled_leaf, borrowed_cow, inner_content. reflexivity. }
  split; [rewrite <- (frags_plain fs) at 2; apply (X false)|apply (X true)].
Qed.
Theorem C35_binary_borrowed : forall S n fs,
  nested_stream S (CE (EBinBegin n) :: map (fun f : bool * bytes => CE (if fst f then EBinFrag (snd f) else EBinFragC (snd f))) fs ++ [CE EBinEnd])
    = n_bin S (borrowed_whole fs) (content fs) /\
  nested_stream_computed S (CE (EBinBegin n) :: map (fun f : bool * bytes => CE (if fst f then EBinFrag (snd f) else EBinFragC (snd f))) fs ++ [CE EBinEnd])
    = n_bin S (borrowed_whole (all_computed fs)) (content fs).
Proof.
  intros S n fs.
  assert (X : forall comp, nested_value (S := S) comp (acalls (ABin n fs)) = n_bin S (borrowed_whole (frags_as comp fs)) (content fs)).
  { intros comp. unfold nested_value, fs_new. fold (settled (fs_calls (S := S) (acalls (ABin n fs)) comp (MkFS None SAny))).
    rewrite fs_bin. cbv zeta. cbn [state_value]. rewrite settled_leaf, borrowed_cow, inner_content. reflexivity. }
  split; [rewrite <- (frags_plain fs) at 2; apply (X false)|apply (X true)].
Qed.
(** Nothing streamed with [stream_computed] can be kept by reference, unless
    it is empty. *)
Theorem C35_computed_never_borrowed : forall fs, borrowed_whole (all_computed fs) = true -> content fs = [].
Proof.
  intros fs. unfold borrowed_whole, all_computed. destruct fs as [|f fs _] using rev_ind; [reflexivity|].
  rewrite map_app, rev_app_distr. cbn. discriminate.
Qed.

(** ** Children

    [value] and [value_computed] of an element that is in its place. *)
Lemma pass_hand S (st : state S) x comp : positioned st = true -> comp = false \/ fst x = false ->
  fs_calls [pass x] comp (MkFS None st) = hand st x.
Proof.
  intros P H. destruct x as [b cs]. rewrite fs_calls_one. unfold pass. cbn [fst snd] in *.
  assert (X : fs_value (negb b) cs (MkFS None st) = hand st (b, cs)).
  { unfold fs_value, buffer_or_with, hand. cbn [f_buf f_state].
    rewrite negb_involutive. destruct st; try discriminate P; reflexivity. }
  destruct b; [destruct H as [-> | H]; [|discriminate H]; rewrite fs_call_CV|rewrite fs_call_CVC]; exact X.
Qed.

Lemma going_map {A B St S} (f : A -> list call) (g : A -> B) (op : St -> B -> outcome St) (I : St -> state S -> Prop) comp l :
  (forall x s st, In x l -> I s st -> going I (fs_calls (f x) comp (MkFS None st)) (op s (g x))) ->
  forall s st, I s st -> going I (fs_calls (flat_map f l) comp (MkFS None st)) (fold_o op s (map g l)).
Proof.
  intros H. destruct (going_list f op (fun y x => y = g x) I comp l) as (m & F & G).
  - apply Forall_forall. intros x Hx. exists (g x). split; [reflexivity|]. intros s st HI. apply H; assumption.
  - replace (map g l) with m; [exact G|]. clear G H. induction F; cbn; congruence.
Qed.

Lemma going_each {A St S} (f : A -> list call) (op : St -> A -> outcome St) (I : St -> state S -> Prop) comp l :
  (forall x s st, In x l -> I s st -> going I (fs_calls (f x) comp (MkFS None st)) (op s x)) ->
  forall s st, I s st -> going I (fs_calls (flat_map f l) comp (MkFS None st)) (fold_o op s l).
Proof. intros H. pose proof (going_map f (fun x => x) op I comp l H) as X. rewrite map_id in X. exact X. Qed.

Theorem C35_elements_as_given : forall S n vs,
  nested_stream S (CE (ESeqBegin n) :: flat_map (fun v => [CE ESeqValBegin; pass v; CE ESeqValEnd]) vs ++ [CE ESeqEnd]) =
  (s <- n_seq_begin S n ;; s' <- fold_o (seq_value S) s vs ;; seq_end S s').
Proof.
  intros S n vs. apply ends_settled.
  apply (node_ends (fun s st => st = SSeq s)); try reflexivity.
  - apply (begin_going SAny (n_seq_begin S n) (fun s => SSeq s)). reflexivity.
  - apply going_each. intros x s st Hx ->.
    apply (going_item _ (fun s' => SSeq s') ESeqValBegin ESeqValEnd [pass x] false x (SSeq s) (SSeq s)); try reflexivity.
    apply pass_hand; [reflexivity|left; reflexivity].
  - intros s st ->. apply ends_settle.
Qed.
Theorem C35_entries_as_given : forall S n es,
  nested_stream S (CE (EMapBegin n) ::
      flat_map (fun e => [CE EMapKeyBegin; pass (fst e); CE EMapKeyEnd; CE EMapValBegin; pass (snd e); CE EMapValEnd]) es ++ [CE EMapEnd]) =
  (s <- n_map_begin S n ;; s' <- fold_o (fun s e => s1 <- map_key S s (fst e) ;; map_value S s1 (snd e)) s es ;; map_end S s').
Proof.
  intros S n es. apply ends_settled.
  apply (node_ends (fun s st => exists b, st = SMap s b)); try reflexivity.
  - apply (begin_going SAny (n_map_begin S n) (fun s => SMap s true)). intros s. exists true. reflexivity.
  - apply going_each. intros [a b] s st Hx (x & ->). cbn [fst snd].
    change [CE EMapKeyBegin; pass a; CE EMapKeyEnd; CE EMapValBegin; pass b; CE EMapValEnd]
      with ((CE EMapKeyBegin :: [pass a] ++ [CE EMapKeyEnd]) ++ (CE EMapValBegin :: [pass b] ++ [CE EMapValEnd])).
    rewrite fs_calls_app. apply (going_then (fun s st => st = SMap s true)).
    + apply (going_item _ (fun s' => SMap s' true) EMapKeyBegin EMapKeyEnd [pass a] false a (SMap s x) (SMap s true)); try reflexivity.
      apply pass_hand; [reflexivity|left; reflexivity].
    + intros s1 st ->. apply (going_item _ (fun s' => SMap s' false) EMapValBegin EMapValEnd [pass b] false b (SMap s1 true) (SMap s1 false)); try reflexivity.
      * apply pass_hand; [reflexivity|left; reflexivity].
      * intros s'. exists false. reflexivity.
  - intros s st (b & ->). apply ends_settle.
Qed.
(** A tuple's values, with their tags and indexes; the label of the tuple is a
    clone. *)
Theorem C35_tuple_values_as_given : forall S t l i n fs,
  nested_stream S (CE (ETupleBegin t l i n) ::
      flat_map (fun f => match f with (ft, fi, v) => [CE (ETupleValBegin ft fi); pass v; CE (ETupleValEnd ft fi)] end) fs ++ [CE (ETupleEnd t l i)]) =
  (s <- n_tuple_begin S t (option_map label_clone l) i n ;;
   s' <- fold_o (fun s f => match f with (ft, fi, v) => tuple_value S s ft fi v end) s fs ;; tuple_end S s').
Proof.
  intros S t l i n fs. apply ends_settled.
  apply (node_ends (fun s st => st = STuple s None)); try reflexivity.
  - apply (begin_going SAny (n_tuple_begin S t (cloned l) i n) (fun s => STuple s None)). reflexivity.
  - apply going_each. intros [[ft fi] v] s st Hx ->.
    apply (going_item _ (fun s' => STuple s' None) (ETupleValBegin ft fi) (ETupleValEnd ft fi) [pass v] false v
             (STuple s None) (STuple s (Some (ft, fi)))); try reflexivity.
    apply pass_hand; [reflexivity|left; reflexivity].
  - intros s st ->. apply ends_settle.
Qed.
(** A record's values, with their tags and (owned) labels. *)
Theorem C35_record_values_as_given : forall S t l i n fs,
  nested_stream S (CE (ERecordBegin t l i n) ::
      flat_map (fun f => match f with (ft, fl, v) => [CE (ERecordValBegin ft fl); pass v; CE (ERecordValEnd ft fl)] end) fs ++ [CE (ERecordEnd t l i)]) =
  (s <- n_record_begin S t (option_map label_clone l) i n ;;
   s' <- fold_o (fun s f => match f with (ft, fl, v) => record_value S s ft (label_to_owned fl) v end) s fs ;; record_end S s').
Proof.
  intros S t l i n fs. apply ends_settled.
  assert (E : forall s, fold_o (fun s f => match f with (ft, fl, v) => record_value S s ft (label_to_owned fl) v end) s fs =
              fold_o (fun s f => match f with (ft, fl, v) => record_value S s ft fl v end) s
                     (map (fun f => match f with (ft, fl, v) => (ft, label_to_owned fl, v) end) fs)).
  { clear. induction fs as [|[[ft fl] v] fs IH]; intros s; cbn [map fold_o]; [reflexivity|].
    destruct (record_value S s ft (label_to_owned fl) v); cbn [obind]; auto. }
  apply (node_ends (fun s st => st = SRecord s None)); try reflexivity.
  - apply (begin_going SAny (n_record_begin S t (cloned l) i n) (fun s => SRecord s None)). reflexivity.
  - intros s st HI. rewrite E. revert s st HI. apply going_map. intros [[ft fl] v] s st Hx ->.
    apply (going_item _ (fun s' => SRecord s' None) (ERecordValBegin ft fl) (ERecordValEnd ft fl) [pass v] false v
             (SRecord s None) (SRecord s (Some (ft, label_to_owned fl)))); try reflexivity.
    apply pass_hand; [reflexivity|left; reflexivity].
  - intros s st ->. apply ends_settle.
Qed.
Theorem C35_tagged_value_as_given : forall S t l i v,
  nested_stream S [CE (ETaggedBegin t l i); pass v; CE (ETaggedEnd t l i)] = n_tagged S t (option_map label_to_owned l) i v.
Proof.
  intros S t l i v. unfold nested_stream, nested_value. rewrite fs_calls_cons, fs_call_CE.
  change (fs_step fs_new (ETaggedBegin t l i)) with (Ok (MkFS (S:=S) None (STagged t (option_map label_to_owned l) i))). cbn [bind].
  change [pass v; CE (ETaggedEnd t l i)] with ([pass v] ++ [CE (ETaggedEnd t l i)]).
  rewrite fs_calls_app, pass_hand; [|reflexivity|left; reflexivity].
  unfold hand. cbn [state_value]. destruct (n_tagged S t (option_map label_to_owned l) i v); reflexivity.
Qed.

(** ** Examples *)
Example C35_given_applies :
  borrowed_whole [(false, []); (true, bs "hi")] = true /\
  borrowed_whole [(true, bs "hi"); (true, [])] = false /\
  borrowed_whole (all_computed [(true, bs "hi")]) = false /\
  nested_stream first_child
    [CE (ESeqBegin None); CE ESeqValBegin; CV [CE ENull]; CE ESeqValEnd; CE ESeqValBegin; CVC [CE (EBool true); CFail]; CE ESeqValEnd; CE ESeqEnd]
    = OOk [CE (EBool true); CFail].
Proof.
  repeat split.
Qed.

Print Assumptions C35_texts_borrowed.
Print Assumptions C35_binary_borrowed.
Print Assumptions C35_computed_never_borrowed.
Print Assumptions C35_elements_as_given.
Print Assumptions C35_entries_as_given.
Print Assumptions C35_tuple_values_as_given.
Print Assumptions C35_record_values_as_given.
Print Assumptions C35_tagged_value_as_given.
