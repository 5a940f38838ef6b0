(** * PreencodeExactProps: exactly which parts can be encoded ahead (C67) *)

From Verif Require Import Base Event Tree LowerModel MethProofs LowerSpec JsonModel JsonGrammar JsonSpec JsonMethProofs JsonProofs JsonProps JsonLocalProofs JsonLocalProps
  JsonTextSpec JsonTextProofs WrittenSpec AdapterModel AdapterProps PreencodeSpec EntryProps EnumExactProps.

Lemma json_tree_alone r32 r64 n s : alone r32 r64 (json_tree n [(true, s)]) = SOk s.
Proof. unfold json_tree. rewrite raw_text. cbn. rewrite app_nil_r. reflexivity. Qed.
Lemma length_differs {r s : bytes} : length r <> length s -> SOk r <> SOk s.
Proof. intros N H. apply N. congruence. Qed.
Lemma named_length v : length (name_before v) = 0%nat <-> takes_name v = false.
Proof.
  split; [|intros H; rewrite (no_name v H); reflexivity].
  induction v using tree_ind'; cbn [takes_name name_before]; intros Z; try reflexivity; auto;
    unfold opening in Z; unfold is_named; (destruct (name_of l i); [discriminate Z|reflexivity]).
Qed.
Lemma one_entry r32 r64 n k v : alone r32 r64 (TMap n [(k, v)]) = closed true (after (bs "{") (sres (run (meth json_over (json_step bytes string_write r32 r64)) (st false true []) (entry_evs (k, v))))).
Proof. rewrite map_alone. cbn [map]. unfold framed. cbn [gather]. destruct (sres _); cbn; reflexivity. Qed.

(** The value of a map entry can be encoded ahead exactly if the key leaves no name
    behind or the value has none. *)
Theorem C67_map_value_exactly :
  forall r32 r64, json_printer r32 -> json_printer r64 ->
  forall n k t s x, key_text r32 r64 false k = Some x -> alone r32 r64 t = SOk s ->
  (alone r32 r64 (TMap n [(k, t)]) = alone r32 r64 (TMap n [(k, json_tree None [(true, s)])]) <-> key_leaks k && takes_name t = false).
Proof.
  intros r32 r64 P32 P64 n k t s x K A. rewrite !one_entry.
  pose proof (C27_entry_exactly r32 r64 P32 P64 k t x K) as E. apply entry_alone_is in E. rewrite <- E. clear E.
  pose proof (C27_entry_exactly r32 r64 P32 P64 k (json_tree None [(true, s)]) x K) as E. apply entry_alone_is in E. rewrite <- E. clear E.
  rewrite A, json_tree_alone. cbn [nameless named_unquoted json_tree name_before opening is_named name_of]. rewrite !andb_false_r.
  pose proof (named_length t) as L. destruct (key_leaks k); cbn [andb].
  - assert (F : takes_name t = false -> nameless t = false).
    { clear. induction t using tree_ind'; cbn [takes_name nameless named_unquoted]; intros T; auto. rewrite T, andb_false_r. reflexivity. }
    destruct (nameless t) eqn:N.
    + split; [discriminate|]. intros T. specialize (F T). discriminate F.
    + rewrite <- L. cbn [after closed]. split.
      * intros E. apply (f_equal (fun r => match r with SOk y => length y | _ => 0%nat end)) in E. cbv beta iota in E. rewrite !app_length in E. cbn [length] in E. lia.
      * intros Z. destruct (name_before t); [reflexivity|discriminate Z].
  - split; reflexivity.
Qed.
(** The variant directly inside an enum can be encoded ahead exactly if no name and no
    brace is written around it. *)
Theorem C67_variant_exactly :
  forall r32 r64 g l i t s, alone r32 r64 t = SOk s ->
  (alone r32 r64 (TEnum g l i t) = alone r32 r64 (TEnum g l i (json_tree None [(true, s)])) <-> takes_name t = false /\ ends_named true t = false).
Proof.
  intros r32 r64 g l i t s A. unfold alone at 1 2.
  rewrite (C26_enum_exactly r32 r64 _ g l i t) by apply FlatProofs.flat_CE_false.
  rewrite (C26_enum_exactly r32 r64 _ g l i (json_tree None [(true, s)])) by apply FlatProofs.flat_CE_false.
  rewrite A, json_tree_alone. cbn [nameless named_unquoted json_tree name_before opening is_named name_of ends_named]. rewrite !andb_false_r.
  assert (F : takes_name t = false -> nameless t = false).
  { clear. induction t using tree_ind'; cbn [takes_name nameless named_unquoted]; intros T; auto. rewrite T, andb_false_r. reflexivity. }
  pose proof (named_length t) as L. destruct (nameless t) eqn:N.
  - split; [discriminate|]. intros [T _]. specialize (F T). discriminate F.
  - cbn [after closed]. split.
    + intros E. apply (f_equal (fun r => match r with SOk y => length y | _ => 0%nat end)) in E. cbv beta iota in E. rewrite !app_length in E. cbn [length] in E.
      split; [apply L; lia|]. destruct (ends_named true t); [cbn in E; lia|reflexivity].
    + intros [T ->]. rewrite (no_name t T). reflexivity.
Qed.
(** A key can be encoded ahead exactly if it is written the same without quotes: a
    number, a boolean or null. *)
Theorem C67_key_exactly :
  forall r32 r64, json_printer r32 -> json_printer r64 ->
  forall n k t s x y, key_text r32 r64 false k = Some x -> alone r32 r64 k = SOk s -> alone r32 r64 t = SOk y -> key_leaks k && takes_name t = false ->
  (alone r32 r64 (TMap n [(k, t)]) = alone r32 r64 (TMap n [(json_tree None [(true, s)], t)]) <-> s = esc x).
Proof.
  intros r32 r64 P32 P64 n k t s x y K A B N. rewrite !one_entry.
  pose proof (C27_values_do_not_depend_on_keys_partial r32 r64 P32 P64 k t x K N) as E. apply entry_alone_is in E. rewrite <- E. clear E.
  assert (E : sres (run (meth json_over (json_step bytes string_write r32 r64)) (st false true []) (entry_evs (json_tree None [(true, s)], t))) = SOk (([dquote] ++ s ++ [dquote; ":"%char]) ++ y)).
  { unfold entry_evs. cbn [fst snd json_tree emit map text_frag app]. 
    rewrite run_cons, jm_over by reflexivity. change (json_step bytes string_write r32 r64 (st false true []) EMapKeyBegin) with (Ok (MkF false true false None None [dquote])). cbn [bind].
    rewrite run_cons, jm_over by reflexivity. change (json_step bytes string_write r32 r64 _ (ETaggedBegin (Some JSON_VALUE) None None)) with (Ok (MkF false true false (Some HNative) None [dquote])). cbn [bind].
    rewrite run_cons, jm_over by reflexivity. change (json_step bytes string_write r32 r64 _ (ETextBegin None)) with (Ok (MkF false false false (Some HNative) None [dquote])). cbn [bind].
    rewrite run_cons, jm_text_frag. change (text_fragment_computed bytes string_write s _) with (Ok (MkF false false false (Some HNative) None ([dquote] ++ s))). cbn [bind].
    rewrite run_cons, jm_over by reflexivity. cbn [json_step bind]; unfold j_text_end; cbn [f_tq bind].
    rewrite run_cons, jm_over by reflexivity. change (json_step bytes string_write r32 r64 _ (ETaggedEnd (Some JSON_VALUE) None None)) with (Ok (st false false ([dquote] ++ s))). cbn [bind].
    rewrite run_cons, jm_over by reflexivity. change (json_step bytes string_write r32 r64 _ EMapKeyEnd) with (Ok (st false false (([dquote] ++ s) ++ [dquote; ":"%char]))). cbn [bind].
    rewrite run_cons, jm_over by reflexivity. cbn [json_step bind]. rewrite run_app.
    pose proof (local r32 r64 t false (([dquote] ++ s) ++ [dquote; ":"%char])) as L. unfold yields in L. rewrite B in L. destruct L as (it & ->). cbn [bind].
    rewrite run_one, jm_over by reflexivity. cbn [json_step sres f_out st]. rewrite <- !app_assoc. reflexivity. }
  rewrite E, B. cbn [after closed]. unfold quoted. split.
  - intros H. apply (f_equal (fun r => match r with SOk z => z | _ => [] end)) in H. cbv beta iota in H. rewrite <- !app_assoc in H. apply app_inv_head in H. apply (app_inv_head [dquote]) in H. change ([ascii_of_N 34] ++ bs ":" ++ y ++ bs "}") with ([dquote; ":"%char] ++ y ++ bs "}") in H. apply app_inv_tail in H. congruence.
  - intros ->. cbn [app]. rewrite <- !app_assoc. reflexivity.
Qed.
Example C67_exact_cases :
  let three := TInt U8 3 in let a := txt "a" in
  alone exact_print exact_print (TMap None [(three, a)]) = alone exact_print exact_print (TMap None [(json_tree None [(true, bs "3")], a)]) /\
  key_text exact_print exact_print false three = Some (bs "3") /\ esc (bs "3") = bs "3" /\
  alone exact_print exact_print (TMap None [(json_tree None [(true, bs """a""")], three)]) = SOk (bs "{""""a"""":3}") /\
  alone exact_print exact_print (TEnum None (lab "E") None (TTag None (lab "A") None)) = alone exact_print exact_print (TEnum None (lab "E") None (json_tree None [(true, bs """A""")])) /\
  takes_name (TTag None (lab "A") None) = false /\ ends_named true (TTag None (lab "A") None) = false.
Proof. vm_compute. repeat split. Qed.

Print Assumptions C67_map_value_exactly.
Print Assumptions C67_variant_exactly.
Print Assumptions C67_key_exactly.
