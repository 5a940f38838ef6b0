(** * SizeProps: output, buffers and calls stay in proportion (C75) *)

From Verif Require Import Base Event FlatProofs LowerModel LowerProofs DataModel DataProofs DecProofs FragModel JsonModel FmtModel BufferModel
  Utf8 StackModel ReaderModel ReaderProofs SizeSpec.

Lemma total_app f a b : total f (a ++ b) = total f a + total f b.
Proof. unfold total. rewrite map_app, list_sum_app. reflexivity. Qed.
Lemma total_cons f e b : total f (e :: b) = f e + total f b.
Proof. reflexivity. Qed.

(** ** Steps that add a bounded amount *)
Section Grow.
  Context {S : Type} (m : S -> nat).
  Definition grows (n : nat) (s : S) (r : res S) : Prop :=
    match r with Ok s' | Err s' => m s' <= m s + n | Panic => True end.
  Lemma grows_le n n' s r : grows n s r -> n <= n' -> grows n' s r.
  Proof. destruct r; cbn; lia. Qed.
  Lemma grows_bind a b s (r : res S) k : grows a s r -> (forall s', grows b s' (k s')) -> grows (a + b) s (r >>= k).
  Proof.
    intros A B. destruct r as [s'|s'|]; cbn in *; [|lia|exact I]. specialize (B s'). destruct (k s'); cbn in *; lia.
  Qed.
  Lemma grows_run step cost : (forall s e, grows (cost e) s (step s e)) ->
    forall es s, grows (total cost es) s (run step s es).
  Proof.
    intros H es. induction es as [|e es IH]; intros s; cbn [run]; [cbn; lia|].
    rewrite total_cons. apply grows_bind; auto.
  Qed.
End Grow.

(** ** JSON *)
Section Json.
  Variable r32 r64 : float -> bytes.
  Notation fm := (fm bytes).
  Notation step := (json_step bytes string_write r32 r64).
  Definition olen (f : fm) : nat := List.length (f_out f).
  Notation G := (grows olen).

  Lemma g_put s f : G (List.length s) f (put bytes string_write s f).
  Proof. unfold put, lift, string_write, grows, olen. cbn. rewrite app_length. lia. Qed.
  Lemma g_ok f f' : f_out f' = f_out f -> G 0 f (Ok f').
  Proof. unfold grows, olen. intros ->. lia. Qed.
  Lemma g_err f f' : f_out f' = f_out f -> G 0 f (Err f').
  Proof. unfold grows, olen. intros ->. lia. Qed.
  (** Changing flags first. *)
  Lemma g_from n f f' r : f_out f' = f_out f -> G n f' r -> G n f r.
  Proof. unfold grows, olen. intros ->. auto. Qed.

  Lemma escape_of_len b es : escape_of b = Some es -> List.length (List.concat es) <= 6.
  Proof.
    unfold escape_of. repeat (destruct (_ =? _)%N; [intros [= <-]; cbn; lia|]).
    destruct (_ <? _)%N; [intros [= <-]; cbn; lia|discriminate].
  Qed.
  Lemma writes_string ss : forall w, writes bytes string_write w ss = Ok (w ++ List.concat ss).
  Proof. induction ss as [|s ss IH]; intros w; cbn; [rewrite app_nil_r; reflexivity|]. rewrite IH, app_assoc. reflexivity. Qed.
  Lemma escape_loop_len rest : forall p w, exists w', escape_loop bytes string_write rest p w = Ok w' /\
    List.length w' <= List.length w + List.length p + 6 * List.length rest.
  Proof.
    assert (P : forall p w : bytes, (match p with [] => Ok w | _ => string_write w p end) = Ok (w ++ p))
      by (intros [|x p] w; [rewrite app_nil_r|]; reflexivity).
    induction rest as [|b rest IH]; intros p w; cbn [escape_loop].
    - rewrite P. eexists. split; [reflexivity|]. rewrite app_length. cbn. lia.
    - destruct (escape_of b) as [es|] eqn:E.
      + rewrite P. cbn [bind]. rewrite writes_string. cbn [bind]. destruct (IH [] ((w ++ p) ++ List.concat es)) as (w' & -> & L).
        eexists. split; [reflexivity|]. apply escape_of_len in E. rewrite !app_length in L. cbn [List.length] in *. lia.
      + destruct (IH (p ++ [b]) w) as (w' & -> & L). eexists. split; [reflexivity|].
        rewrite app_length in L. cbn [List.length] in *. lia.
  Qed.
  Lemma g_escape s f : G (6 * List.length s) f (lift bytes f (escape_str bytes string_write s (f_out f))).
  Proof.
    unfold escape_str. destruct (escape_loop_len s [] (f_out f)) as (w' & -> & L). unfold grows, olen, lift. cbn in *. lia.
  Qed.

  Lemma num_loop_len rest : forall h a b w, a <= b -> exists h' a' b' w',
    num_loop bytes string_write rest h a b w = Ok (h', a', b', w') /\ a' <= b' /\
    List.length w' + (b' - a') <= List.length w + (b - a) + 6 * List.length rest.
  Proof.
    induction rest as [|c rest IH]; intros h a b w L; cbn [num_loop].
    - repeat eexists; lia.
    - cbn zeta.
      repeat match goal with |- context [if ?x then _ else _] => destruct x end;
        cbn [bind]; repeat match goal with |- context [string_write ?w ?s] => change (string_write w s) with (@Ok bytes (w ++ s)); cbn [bind] end.
      all: try (match goal with |- exists _ _ _ _, num_loop _ _ _ ?h ?a ?b ?w = _ /\ _ => destruct (IH h a b w ltac:(lia)) as (h' & a' & b' & w' & -> & L1 & L2) end;
        exists h', a', b', w'; split; [reflexivity|]; split; [exact L1|]; rewrite ?app_length in L2; cbn [List.length] in *; lia).
      all: eexists _, _, _, _; split; [reflexivity|]; rewrite ?app_length; cbn [List.length bs list_ascii_of_string]; lia.
  Qed.
  Lemma str_slice_len v a b s : str_slice v a b = Some s -> List.length s <= b - a.
  Proof. unfold str_slice. destruct (_ && _ && _); [|discriminate]. intros [= <-]. rewrite firstn_length. lia. Qed.
  Lemma g_text s f : G (6 * List.length s) f (text_fragment_computed bytes string_write s f).
  Proof.
    unfold text_fragment_computed. destruct (f_th f) as [[|n]|]; [|..|apply g_escape].
    - eapply grows_le; [apply g_put|lia].
    - unfold num_fragment. destruct (n_nan n); [unfold grows, olen; cbn; lia|].
      destruct (num_loop_len s n 0 0 (f_out f) ltac:(lia)) as (h' & a' & b' & w' & -> & L1 & L2).
      destruct (str_slice s a' b') as [x|] eqn:E; [|exact I]. apply str_slice_len in E.
      unfold string_write, grows, olen. cbn. rewrite app_length. lia.
  Qed.

  Lemma g_str s f : G (2 + 6 * List.length s) f (j_str bytes string_write s f).
  Proof.
    unfold j_str. eapply grows_le; [apply grows_bind with (a := 1 + 6 * List.length s) (b := 1); [apply grows_bind|]|lia].
    - unfold j_text_begin. destruct (f_tq _); eapply g_from with (f' := set_cde bytes false f); try reflexivity; [apply g_put|].
      eapply grows_le; [apply g_ok; reflexivity|lia].
    - apply g_text.
    - intros s'. unfold j_text_end. destruct (f_tq s'); [apply g_put|]. eapply grows_le; [apply g_ok; reflexivity|lia].
  Qed.
  Lemma g_null f : G 4 f (j_null bytes string_write f).
  Proof. eapply g_from with (f' := set_cde bytes false f); [reflexivity|apply g_put]. Qed.
  Lemma g_int z f : G (digits z) f (j_int bytes string_write z f).
  Proof. eapply g_from with (f' := set_cde bytes false f); [reflexivity|apply g_put]. Qed.
  Lemma index_i64_val i z : index_i64 i = Some z -> digits z = index_digits i.
  Proof.
    unfold index_i64, index_to. destruct i as [i|]; [|discriminate].
    destruct (_ && _) eqn:E; [|discriminate]. intros [= <-]. unfold index_digits. f_equal.
    change (cast I128 (ity_min I64)) with (ity_min I64) in E. change (cast I128 (ity_max I64)) with (ity_max I64) in E.
    apply andb_true_iff in E as [E1 E2]. apply Z.leb_le in E1, E2. unfold cast. rewrite Z.mod_small; [lia|].
    change (ity_max I64) with (2 ^ width I64 + ity_min I64 - 1)%Z in E2. lia.
  Qed.
  Lemma g_tag t l i f : G (4 + 6 * label_bytes l + index_digits i) f (j_tag bytes string_write t l i f).
  Proof.
    unfold j_tag. eapply g_from with (f' := set_cde bytes false (set_it bytes false f)); [reflexivity|].
    destruct (otag_is t RUST_OPTION_NONE); [eapply grows_le; [apply g_null|lia]|].
    destruct l as [l|]; cbn [label_bytes]; [eapply grows_le; [apply g_str|lia]|].
    destruct (index_i64 i) as [z|] eqn:E; [|eapply grows_le; [apply g_null|lia]].
    apply index_i64_val in E. eapply grows_le; [apply g_int|lia].
  Qed.
  Lemma g_map_begin f : G 1 f (j_map_begin bytes string_write f).
  Proof.
    unfold j_map_begin. destruct (f_tq f).
    - eapply g_from with (f' := set_cde bytes true f); [reflexivity|apply g_put].
    - eapply grows_le; [apply g_err; reflexivity|lia].
  Qed.
  (** With the flag that [map_begin] sets, a key begins without a comma. *)
  Lemma g_key_begin f : G 2 f (j_map_key_begin bytes string_write f).
  Proof.
    unfold j_map_key_begin. eapply g_from with (f' := set_it bytes false (set_tq bytes false f)); [reflexivity|].
    destruct (f_cde _); (eapply grows_le; [apply g_put|cbn; lia]).
  Qed.
  Lemma g_key_end f : G 2 f (j_map_key_end bytes string_write f).
  Proof. apply grows_bind with (a := 2) (b := 0); [apply g_put|]. intros s'. apply g_ok. reflexivity. Qed.
  Lemma g_named_key (k : fm -> res fm) n f : (forall f, G n f (k f)) ->
    G (4 + n) f (j_map_begin bytes string_write f >>= j_map_key_begin bytes string_write >>= k >>= j_map_key_end bytes string_write).
  Proof.
    intros K. unfold j_map_begin. destruct (f_tq f); [|eapply grows_le; [cbn; apply g_err; reflexivity|lia]].
    unfold put at 1, string_write at 1. cbn [lift bind]. unfold j_map_key_begin at 1. cbn [f_cde set_it set_tq set_out set_cde].
    unfold put at 1, string_write at 1. cbn [lift bind].
    set (f' := set_out _ _ _). eapply grows_le with (n := n + 2 + 2); [|lia].
    assert (L : olen f' = olen f + 2) by (unfold olen, f'; cbn; rewrite !app_length; cbn; lia).
    pose proof (grows_bind olen n 2 f' (k f') (j_map_key_end bytes string_write) (K f') g_key_end) as X.
    destruct (_ >>= _); cbn in *; lia.
  Qed.
  Lemma g_tagged_begin l i f : G (4 + 6 * label_bytes l + index_digits i) f (internally_tagged_begin bytes string_write l i f).
  Proof.
    unfold internally_tagged_begin. destruct (f_it f); [|eapply grows_le; [apply g_ok; reflexivity|lia]].
    eapply g_from with (f' := set_it bytes false f); [reflexivity|].
    destruct l as [l|]; cbn [label_bytes].
    - eapply grows_le; [apply g_named_key with (n := 6 * List.length (l_text l)); intros; apply g_escape|lia].
    - destruct (index_i64 i) as [z|] eqn:E; [|eapply grows_le; [apply g_ok; reflexivity|lia]].
      apply index_i64_val in E. eapply grows_le; [apply g_named_key with (n := digits z); intros; apply g_int|lia].
  Qed.
  Lemma g_tagged_end l i f : G 0 f (internally_tagged_end bytes l i f).
  Proof. apply g_ok. reflexivity. Qed.

  (** What a method adds at most. *)
  Definition jcost (e : ev) : nat :=
    match e with
    | ENull => 4
    | EBool _ => 5
    | ETextBegin _ | ETextEnd | EMapBegin _ | EMapEnd | ESeqBegin _ | ESeqValBegin | ESeqEnd => 1
    | ETextFragC s => 6 * List.length s
    | EInt _ z => digits z
    | EF32 x => 4 + List.length (r32 x)
    | EF64 x => 4 + List.length (r64 x)
    | EMapKeyBegin | EMapKeyEnd => 2
    | EEnumBegin _ l i | ETaggedBegin _ l i | ETag _ l i => 4 + 6 * label_bytes l + index_digits i
    | EEnumEnd _ l i | ETaggedEnd _ l i | ERecordBegin _ l i _ | ETupleBegin _ l i _ => 5 + 6 * label_bytes l + index_digits i
    | ERecordValBegin _ l => 4 + 6 * List.length (l_text l)
    | ERecordEnd _ _ _ | ETupleEnd _ _ _ => 1
    | _ => 0
    end.
  Lemma g_step f e : G (jcost e) f (step f e).
  Proof.
    destruct e; cbn [json_step jcost]; try (apply g_err; reflexivity); try (apply g_ok; reflexivity).
    - apply g_null.
    - eapply g_from with (f' := set_cde bytes false f); [reflexivity|]. eapply grows_le; [apply g_put|destruct b; cbn; lia].
    - unfold j_text_begin. eapply g_from with (f' := set_cde bytes false f); [reflexivity|].
      destruct (f_tq _); [apply g_put|eapply grows_le; [apply g_ok; reflexivity|lia]].
    - apply g_text.
    - unfold j_text_end. destruct (f_tq _); [apply g_put|eapply grows_le; [apply g_ok; reflexivity|lia]].
    - apply g_int.
    - unfold j_float. eapply g_from with (f' := set_cde bytes false f); [reflexivity|].
      destruct (_ || _); [eapply grows_le; [apply g_null|lia]|eapply grows_le; [apply g_put|lia]].
    - unfold j_float. eapply g_from with (f' := set_cde bytes false f); [reflexivity|].
      destruct (_ || _); [eapply grows_le; [apply g_null|lia]|eapply grows_le; [apply g_put|lia]].
    - apply g_map_begin.
    - apply g_key_begin.
    - apply g_key_end.
    - eapply g_from with (f' := set_cde bytes false f); [reflexivity|apply g_put].
    - unfold j_seq_begin. destruct (f_tq f).
      + eapply g_from with (f' := set_cde bytes true f); [reflexivity|apply g_put].
      + eapply grows_le; [apply g_err; reflexivity|lia].
    - unfold j_seq_value_begin. eapply g_from with (f' := set_it bytes false f); [reflexivity|].
      destruct (f_cde _); [eapply grows_le; [apply g_ok; reflexivity|lia]|apply g_put].
    - eapply g_from with (f' := set_cde bytes false f); [reflexivity|apply g_put].
    - eapply grows_le; [apply grows_bind; [apply g_tagged_begin|intros; apply g_ok; reflexivity]|lia].
    - eapply grows_le; [apply grows_bind with (a := 4 + 6 * label_bytes l + index_digits i) (b := 1)|lia].
      + destruct (f_cde f); [apply g_tag|eapply grows_le; [apply g_ok; reflexivity|lia]].
      + intros f'. destruct (f_it f'); [|eapply grows_le; [apply g_tagged_end|lia]].
        eapply g_from with (f' := set_cde bytes false f'); [reflexivity|apply g_put].
    - unfold j_tagged_begin. set (f' := if otag_is t JSON_TEXT then _ else _).
      eapply g_from with (f' := f'); [|eapply grows_le; [apply grows_bind; [apply g_tagged_begin|intros; apply g_ok; reflexivity]|lia]].
      unfold f'. repeat match goal with |- context [if ?x then _ else _] => destruct x end; reflexivity.
    - unfold j_tagged_end. eapply grows_le with (n := 1 + ((4 + 6 * label_bytes l + index_digits i) + 0)); [|lia].
      apply grows_bind; [|intros f'; apply grows_bind; [|intros; apply g_tagged_end]].
      + repeat match goal with |- context [if otag_is t ?x then _ else _] => destruct (otag_is t x) end;
          try (eapply grows_le; [apply g_ok; reflexivity|lia]).
        cbn zeta. destruct (f_th _) as [[|n]|]; try (eapply grows_le; [apply g_ok; reflexivity|lia]).
        unfold num_end. destruct (n_start n); [|eapply grows_le; [apply g_ok; reflexivity|lia]].
        unfold string_write, grows, olen. cbn. rewrite app_length. cbn. lia.
      + destruct (f_cde f'); [apply g_tag|eapply grows_le; [apply g_ok; reflexivity|lia]].
    - apply g_tag.
    - eapply grows_le; [apply grows_bind; [apply g_tagged_begin|apply g_map_begin]|lia].
    - unfold j_record_value_begin. eapply g_from with (f' := set_it bytes false f); [reflexivity|].
      eapply grows_le with (n := 2 + (6 * List.length (l_text l) + 2)); [|lia].
      apply grows_bind; [destruct (f_cde _); (eapply grows_le; [apply g_put|cbn; lia])|]. intros f'.
      apply grows_bind; [|intros; apply g_put].
      destruct (otag_is _ _); [eapply grows_le; [apply g_put|lia]|apply g_escape].
    - unfold j_record_end. change 1 with (1 + 0). apply grows_bind; [|intros; apply g_tagged_end].
      eapply g_from with (f' := set_cde bytes false f); [reflexivity|apply g_put].
    - unfold j_tuple_begin. eapply grows_le with (n := (4 + 6 * label_bytes l + index_digits i) + 1); [|lia].
      apply grows_bind; [apply g_tagged_begin|]. intros f'.
      unfold j_seq_begin. destruct (f_tq f').
      + eapply g_from with (f' := set_cde bytes true f'); [reflexivity|apply g_put].
      + eapply grows_le; [apply g_err; reflexivity|lia].
    - unfold j_tuple_end. change 1 with (1 + 0). apply grows_bind; [|intros; apply g_tagged_end].
      eapply g_from with (f' := set_cde bytes false f); [reflexivity|apply g_put].
  Qed.

  Lemma byte_digits b : digits (byte_val b) <= 3.
  Proof. destruct b as [[] [] [] [] [] [] [] []]; vm_compute; lia. Qed.
  Lemma bin_cost fuel s : total jcost (flat_map (lower json_over (Datatypes.S fuel))
    (fst (flat (flat_map (fun b => [CE ESeqValBegin; CE (EInt U8 (byte_val b)); CE ESeqValEnd]) s) false))) <= 4 * List.length s.
  Proof.
    induction s as [|b s IH]; [cbn; lia|]. cbn [flat_map app]. rewrite !flat_cons. cbn [flat1].
    destruct (flat (flat_map _ s) false) as [es k] eqn:E. cbn [fst] in *. cbn [flat_map app].
    change (total jcost ([ESeqValBegin; EInt U8 (byte_val b); ESeqValEnd] ++ flat_map (lower json_over (Datatypes.S fuel)) es) <= 4 * List.length (b :: s)).
    rewrite total_app, !total_cons. cbn [jcost total map list_sum fold_right]. pose proof (byte_digits b). cbn [List.length]. lia.
  Qed.
  Local Arguments lower : simpl nomatch.
  Lemma lower_cost e : total jcost (lower json_over depth e) <= 6 * (1 + payload e + printed r32 r64 e).
  Proof.
    destruct e; try (unfold total, list_sum; cbn -[Nat.mul digits dec]; lia).
    - change (lower json_over depth (EBinFrag s)) with (flat_map (lower json_over 6) (fst (flat (flat_map (fun b => [CE ESeqValBegin; CE (EInt U8 (byte_val b)); CE ESeqValEnd]) s) false)) ++ []).
      rewrite app_nil_r. pose proof (bin_cost 5 s). cbn [payload printed]. lia.
    - change (lower json_over depth (EBinFragC s)) with (flat_map (lower json_over 7) (fst (flat (flat_map (fun b => [CE ESeqValBegin; CE (EInt U8 (byte_val b)); CE ESeqValEnd]) s) false))).
      pose proof (bin_cost 6 s). cbn [payload printed]. lia.
  Qed.

  Lemma lower_all_cost es : total jcost (lower_all json_over es) <= 6 * size_of r32 r64 es.
  Proof.
    unfold size_of. induction es as [|e es IH]; cbn [lower_all flat_map]; [cbn; lia|].
    rewrite total_app, total_cons. pose proof (lower_cost e). unfold lower_all in IH. lia.
  Qed.
End Json.

(** ** Debug text *)
Section Fmt.
  Variable r32 r64 : float -> bytes.
  Variable uni : bytes -> list bytes.
  Hypothesis uni_ok : forall ch, List.length (List.concat (uni ch)) <= 6 * List.length ch.
  Notation wst := (wst bytes).
  Notation tok := (generic_tok (fun w s : bytes => @Ok bytes (w ++ s))).
  Notation step := (fmt_step bytes tok r32 r64 uni).
  Definition wlen (s : wst) : nat := List.length (w_out bytes s).
  Notation G := (grows wlen).
  Definition tlen (ts : list token) : nat := fold_right Init.Nat.add 0 (map (fun t => List.length (snd t)) ts).

  Lemma toks_len ts : forall w, exists w', toks bytes tok w ts = Ok w' /\ List.length w' = List.length w + tlen ts.
  Proof.
    induction ts as [|[k t] ts IH]; intros w; cbn [toks].
    - exists w. split; [reflexivity|]. cbn. lia.
    - change (exists w', toks bytes tok (w ++ t) ts = Ok w' /\ List.length w' = List.length w + tlen ((k, t) :: ts)). destruct (IH (w ++ t)) as (w' & -> & E). exists w'. split; [reflexivity|].
      rewrite E, app_length. unfold tlen, list_sum. cbn. lia.
  Qed.
  Lemma p_puts n ts s : tlen ts <= n -> G n s (puts bytes tok ts s).
  Proof. intros L. unfold puts. destruct (toks_len ts (w_out _ s)) as (w' & -> & E). unfold grows, wlen. cbn. lia. Qed.
  Lemma p_ok s s' : w_out bytes s' = w_out bytes s -> G 0 s (Ok s').
  Proof. unfold grows, wlen. intros ->. lia. Qed.
  Lemma p_from n s s' r : w_out bytes s' = w_out bytes s -> G n s' r -> G n s r.
  Proof. unfold grows, wlen. intros ->. auto. Qed.

  Lemma esc_ascii_len c : List.length (List.concat (esc_ascii c)) <= 6.
  Proof. destruct c as [[] [] [] [] [] [] [] []]; vm_compute; lia. Qed.
  Lemma escape_debug_len ch : List.length (List.concat (escape_debug uni ch)) <= 6 * List.length ch.
  Proof.
    unfold escape_debug. destruct ch as [|c [|d ch]]; try apply uni_ok.
    destruct (_ <? _)%N; [pose proof (esc_ascii_len c); cbn [List.length]; lia|apply uni_ok].
  Qed.
  Lemma escape_pieces_len cs : forall p, List.length (List.concat (escape_pieces uni cs p)) <= List.length p + 6 * List.length (List.concat cs).
  Proof.
    induction cs as [|ch cs IH]; intros p; cbn [escape_pieces].
    - destruct p; cbn; rewrite ?app_nil_r; lia.
    - cbn [List.concat]. rewrite app_length. destruct (Nat.ltb _ _).
      + rewrite !concat_app, !app_length. specialize (IH []). pose proof (escape_debug_len ch).
        destruct p; cbn [List.concat List.length] in *; rewrite ?app_nil_r; cbn [List.length]; lia.
      + specialize (IH (p ++ ch)). rewrite app_length in IH. lia.
  Qed.
  Lemma chars_concat s : List.concat (chars s) = s.
  Proof.
    induction s as [|c s IH]; [reflexivity|]. cbn [chars]. destruct s as [|d s]; [reflexivity|].
    destruct (tail_byte d).
    - destruct (chars (d :: s)) as [|ch rest] eqn:E; [discriminate IH|]. cbn in IH |- *. rewrite <- IH. reflexivity.
    - cbn [List.concat]. rewrite IH. reflexivity.
  Qed.
  Lemma t_text_len s : tlen (t_text uni s) <= 6 * List.length s.
  Proof.
    pose proof (escape_pieces_len (chars s) []) as H. rewrite chars_concat in H. cbn [List.length] in H.
    replace (tlen (t_text uni s)) with (List.length (List.concat (escape_pieces uni (chars s) []))); [lia|].
    unfold t_text. clear H. induction (escape_pieces uni (chars s) []) as [|x l IH]; [reflexivity|].
    cbn [List.concat map]. rewrite app_length, IH. reflexivity.
  Qed.

  Definition fcost (e : ev) : nat :=
    match e with
    | ENull => 2
    | EBool _ => 5
    | ETextBegin _ | ETextEnd | EBinBegin _ | EBinEnd | EMapBegin _ | ESeqBegin _ | ESeqEnd | ETaggedEnd _ _ _ | ETupleEnd _ _ _ => 1
    | ETextFragC s => 6 * List.length s
    | EBinFragC s => 5 * List.length s
    | EInt _ z => digits z
    | EF32 x => List.length (r32 x)
    | EF64 x => List.length (r64 x)
    | EMapKeyBegin | EMapKeyEnd | EMapEnd | ESeqValBegin | ETupleValBegin _ _ | ERecordEnd _ _ _ => 2
    | EEnumEnd _ l _ | ETag _ l _ | ERecordBegin _ l _ _ => 2 + label_bytes l
    | ETaggedBegin _ l _ | ETupleBegin _ l _ _ => 1 + label_bytes l
    | ERecordValBegin _ l => 4 + List.length (l_text l)
    | _ => 0
    end.
  Lemma p_bytes v : forall s, G (5 * List.length v) s (d_bytes bytes tok v s).
  Proof.
    induction v as [|b v IH]; intros s; cbn [d_bytes List.length]; [apply p_ok; reflexivity|].
    eapply grows_le with (n := 2 + 3 + 0 + 5 * List.length v); [|lia].
    apply grows_bind; [|auto]. apply grows_bind; [|intros; apply p_ok; reflexivity]. apply grows_bind.
    - apply p_puts. destruct (w_empty _ s); cbn; lia.
    - intros s'. apply p_puts. pose proof (byte_digits b). unfold digits in *. cbn [tlen map snd list_sum fold_right]. lia.
  Qed.
  Lemma p_tag l s : G (2 + label_bytes l) s (d_tag bytes tok l s).
  Proof. unfold d_tag. eapply p_from with (s' := set_empty bytes false s); [reflexivity|]. apply p_puts. destruct l; cbn; lia. Qed.
  Lemma p_step s e : G (fcost e) s (step s e).
  Proof.
    destruct e; cbn [fmt_step fcost]; try (apply p_ok; reflexivity); try (unfold grows, wlen; cbn; lia).
    all: try (apply p_puts; cbn; lia).
    all: try (apply p_puts; destruct (w_empty _ s); cbn; rewrite ?app_length; cbn; lia).
    all: try (unfold d_text_begin; destruct (w_num _ s); [eapply grows_le; [apply p_ok; reflexivity|lia]|apply p_puts; cbn; lia]).
    all: try (unfold d_open; eapply p_from with (s' := set_empty bytes true (set_num bytes false s)); [reflexivity|]; apply p_puts; cbn; lia).
    - apply p_puts. destruct b; cbn; lia.
    - unfold d_text_frag. destruct (w_num _ s); apply p_puts; [cbn; lia|apply t_text_len].
    - apply p_bytes.
    - apply p_puts. unfold digits. cbn -[dec]. lia.
    - unfold d_enum_end. destruct (w_empty _ s); [apply p_tag|eapply grows_le; [apply p_ok; reflexivity|lia]].
    - unfold d_tagged_begin. cbn zeta. set (s' := if otag_is t NUMBER then _ else _).
      eapply p_from with (s' := s'); [unfold s'; destruct (otag_is t NUMBER); reflexivity|]. apply p_puts. destruct l; cbn; lia.
    - unfold d_tagged_end. cbn zeta. set (s' := if otag_is t NUMBER then _ else _).
      eapply p_from with (s' := s'); [unfold s'; destruct (otag_is t NUMBER); reflexivity|]. apply p_puts. destruct l; cbn; lia.
    - apply p_tag.
    - unfold d_record_begin, d_open. eapply p_from with (s' := set_empty bytes true (set_num bytes false s)); [reflexivity|].
      apply p_puts. destruct l; cbn; lia.
    - unfold d_tuple_begin, d_open. eapply p_from with (s' := set_empty bytes true (set_num bytes false s)); [reflexivity|].
      apply p_puts. destruct l; cbn; lia.
  Qed.
  Local Arguments lower : simpl nomatch.
  Lemma lower_fcost e : total fcost (lower fmt_over depth e) <= 6 * (1 + payload e + printed r32 r64 e).
  Proof. destruct e; unfold total, list_sum; cbn -[Nat.mul digits dec]; lia. Qed.
  Lemma lower_all_fcost es : total fcost (lower_all fmt_over es) <= 6 * size_of r32 r64 es.
  Proof.
    unfold size_of. induction es as [|e es IH]; cbn [lower_all flat_map]; [cbn; lia|].
    rewrite total_app, total_cons. pose proof (lower_fcost e). unfold lower_all in IH. lia.
  Qed.
End Fmt.

(** ** The buffer *)
Definition held (p : part) : nat :=
  match p with
  | PLeaf k => payload (leaf_ev k)
  | PText c | PBin c => List.length (frag_inner c)
  | PNode _ k => payload (begin_ev k)
  end.
Definition held_all (ps : list part) : nat := list_sum (map held ps).

Lemma held_app a b : held_all (a ++ b) = held_all a + held_all b.
Proof. unfold held_all. rewrite map_app, list_sum_app. reflexivity. Qed.
Lemma held_set_part ps : forall n p q, nth_error ps n = Some q -> held p = held q ->
  held_all (set_part ps n p) = held_all ps /\ List.length (set_part ps n p) = List.length ps.
Proof.
  induction ps as [|x ps IH]; intros [|n] p q N H; cbn in N; try discriminate.
  - injection N as ->. split; [unfold held_all, list_sum; cbn; lia|reflexivity].
  - destruct (IH _ _ _ N H) as [A B]. cbn [set_part]. split; [unfold held_all, list_sum in *; cbn; lia|cbn; lia].
Qed.
Lemma last_split ps p : last_part ps = Some p -> ps = removelast ps ++ [p].
Proof.
  unfold last_part. intros H. assert (N : ps <> []) by (intros ->; discriminate).
  destruct (exists_last N) as (l & x & ->). rewrite rev_app_distr in H. cbn in H. injection H as <-.
  rewrite removelast_last. reflexivity.
Qed.
Lemma own_text l : l_text (label_to_owned l) = l_text l.
Proof. unfold label_to_owned, as_static_str. destruct (l_kind l); reflexivity. Qed.
Lemma own_bytes l : label_bytes (own l) = label_bytes l.
Proof. destruct l as [l|]; [|reflexivity]. cbn. rewrite own_text. reflexivity. Qed.
Lemma push_len c s : List.length (c_data (frag_push c s)) = List.length (c_data c) + List.length s.
Proof. unfold frag_push. destruct (c_data c) eqn:E; cbn; [reflexivity|]. rewrite E, app_length. reflexivity. Qed.

Lemma b_end b : grows (fun b => held_all (parts b)) 0 b (push_end b) /\ grows (fun b => List.length (parts b)) 0 b (push_end b).
Proof.
  unfold push_end. destruct (BufferModel.stack b) as [|i rest]; [unfold vfail, grows; cbn [parts]; lia|].
  destruct (nth_error (parts b) i) as [[k|c|c|n k]|] eqn:E; unfold vfail, grows; cbn [parts]; try lia.
  destruct (held_set_part _ _ (PNode (List.length (parts b) - i - 1) k) _ E eq_refl) as [-> ->]. lia.
Qed.
Lemma b_frag b text br s : grows (fun b => held_all (parts b)) (List.length s) b (push_frag b text br s) /\
  grows (fun b => List.length (parts b)) 0 b (push_frag b text br s).
Proof.
  unfold push_frag. destruct (last_part (parts b)) as [p|] eqn:E; [|split; exact I].
  apply last_split in E. set (k := removelast (parts b)) in *.
  assert (X : forall c, held_all (k ++ [c]) = held_all k + held c) by (intros; rewrite held_app; unfold held_all, list_sum; cbn; lia).
  assert (Y : forall c : part, List.length (k ++ [c]) = List.length k + 1) by (intros; rewrite app_length; reflexivity).
  destruct p as [a|c|c|n a]; try destruct text; unfold vfail, set_last; cbn [grows parts]; fold k; rewrite E, ?X, ?Y; cbn [held frag_inner]; try lia.
  all: unfold frag_inner; destruct br; rewrite ?push_len; unfold frag_push_computed; cbn [c_data]; rewrite ?app_length; lia.
Qed.
Lemma b_step b e : grows (fun b => held_all (parts b)) (payload e) b (vbuf_step b e) /\
  grows (fun b => List.length (parts b)) 1 b (vbuf_step b e).
Proof.
  destruct e; cbn [vbuf_step payload].
  all: try (destruct (b_end b) as [A B]; split; (eapply grows_le; [eassumption|lia])).
  all: try (match goal with |- context [push_frag ?b ?t ?r ?s] => destruct (b_frag b t r s) as [A B] end; split; (eapply grows_le; [eassumption|lia])).
  all: split; unfold grows; [|cbn; rewrite ?app_length; cbn; lia].
  all: unfold push_begin, push_part, set_in_tb; cbn [parts]; rewrite ?held_app; unfold held_all, list_sum; cbn [map list_sum fold_right held payload leaf_ev begin_ev frag_inner c_data text_buf_new frag_new List.length];
    rewrite ?own_bytes, ?own_text; lia.
Qed.

(** Replaying a buffer. *)
Lemma replay_size fuel : forall ps cs, replay fuel ps = Some cs ->
  exists es, flat cs false = (es, true) /\ List.length es <= 3 * List.length ps /\ total payload es <= 2 * held_all ps.
Proof.
  induction fuel as [|fuel IH]; intros [|p rest] cs H; cbn [replay] in H; try discriminate;
    try (injection H as <-; exists []; cbn; repeat split; lia).
  assert (T : forall a (ca : list call) ea, flat ca false = (ea, true) -> List.length ea <= 3 -> total payload ea <= held a ->
    option_map (fun cs => ca ++ cs) (replay fuel rest) = Some cs ->
    exists es, flat cs false = (es, true) /\ List.length es <= 3 * List.length (p :: rest) /\ total payload es <= 2 * (held a + held_all rest)).
  { intros a ca ea F L P X. destruct (replay fuel rest) as [cs'|] eqn:E; [|discriminate]. injection X as <-.
    destruct (IH _ _ E) as (es & F' & L' & P'). exists (ea ++ es). rewrite flat_app, F, F'. split; [reflexivity|].
    rewrite app_length, total_app. cbn [List.length]. lia. }
  change (held_all (p :: rest)) with (held p + held_all rest).
  destruct p as [k|c|c|n k].
  - apply (T (PLeaf k) [CE (leaf_ev k)] [leaf_ev k]); [reflexivity|cbn; lia|cbn; lia|exact H].
  - apply (T (PText c) (text_buf_ref c) (if c_owned c then [ETextBegin (Some (blen (frag_inner c))); ETextFragC (frag_inner c); ETextEnd]
      else [ETextBegin (Some (blen (frag_inner c))); ETextFrag (frag_inner c); ETextEnd])); [|..|exact H];
      unfold text_buf_ref, frag_borrowed; destruct (c_owned c); cbn; unfold frag_inner; try reflexivity; try lia.
  - apply (T (PBin c) (bin_buf_ref c) (if c_owned c then [EBinBegin (Some (blen (frag_inner c))); EBinFragC (frag_inner c); EBinEnd]
      else [EBinBegin (Some (blen (frag_inner c))); EBinFrag (frag_inner c); EBinEnd])); [|..|exact H];
      unfold bin_buf_ref, frag_borrowed; destruct (c_owned c); cbn; unfold frag_inner; try reflexivity; try lia.
  - destruct (Nat.leb n (List.length rest)) eqn:L; [|discriminate]. apply Nat.leb_le in L.
    destruct (replay fuel (firstn n rest)) as [body|] eqn:E1; [|discriminate].
    destruct (replay fuel (skipn n rest)) as [after|] eqn:E2; [|discriminate]. injection H as <-.
    destruct (IH _ _ E1) as (e1 & F1 & L1 & P1). destruct (IH _ _ E2) as (e2 & F2 & L2 & P2).
    exists (begin_ev k :: e1 ++ end_ev k :: e2). rewrite flat_cons, flat_app, F1, flat_cons, F2. cbn [flat1].
    split; [reflexivity|]. rewrite firstn_length_le in L1 by lia. rewrite skipn_length in L2.
    rewrite <- (firstn_skipn n rest) at 2. rewrite held_app.
    assert (X : payload (end_ev k) <= payload (begin_ev k)) by (destruct k; cbn; lia).
    rewrite total_cons, total_app, total_cons. cbn [List.length]. rewrite app_length. cbn [List.length held]. lia.
Qed.

(** ** The reader *)
Section Reader.
  Definition says {A} (c p : nat) (x : does A) : Prop := List.length (fst x) <= c /\ total payload (fst x) <= p.
  Definition rest_of (o : ends resumed) : nat := match o with MOk (More s _) => List.length s | _ => 0 end.
  Definition spent (c p n : nat) (x : does resumed) : Prop :=
    List.length (fst x) + 8 * rest_of (snd x) <= c + 8 * n /\ total payload (fst x) + rest_of (snd x) <= p + n.
  Lemma says_say e : says 1 (payload e) (say e).
  Proof. split; unfold total, list_sum; cbn; lia. Qed.
  Lemma says_ret {A} (a : A) : says 0 0 (ret a).
  Proof. split; cbn; lia. Qed.
  Lemma says_le {A} c p c' p' (x : does A) : says c p x -> c <= c' -> p <= p' -> says c' p' x.
  Proof. unfold says. lia. Qed.
  Lemma says_then {A B} c p c' p' (x : does A) (f : A -> does B) : says c p x -> (forall a, says c' p' (f a)) ->
    says (c + c') (p + p') (x >>> f).
  Proof.
    intros [X1 X2] F. destruct x as [es [a| |]]; unfold says in *; cbn [fst snd andthen] in *; try lia.
    specialize (F a). destruct (f a) as [es' o]. cbn [fst snd] in *. rewrite app_length, total_app. lia.
  Qed.
  Lemma spent_then {A} c p c' p' n (x : does A) f : says c p x -> (forall a, spent c' p' n (f a)) -> spent (c + c') (p + p') n (x >>> f).
  Proof.
    intros [X1 X2] F. destruct x as [es [a| |]]; unfold spent in *; cbn [fst snd andthen rest_of] in *; try lia.
    specialize (F a). destruct (f a) as [es' o]. cbn [fst snd] in *. rewrite app_length, total_app. lia.
  Qed.
  Lemma spent_le c p n c' p' n' x : spent c p n x -> c + 8 * n <= c' + 8 * n' -> p + n <= p' + n' -> spent c' p' n' x.
  Proof. unfold spent. lia. Qed.
  Lemma spent_more s r : spent 0 0 (List.length s) (ret (More s r)).
  Proof. split; cbn; lia. Qed.
  Lemma spent_maybe s r : spent 0 0 (List.length s) (maybe_done s r).
  Proof. unfold maybe_done. destruct s; [destruct (StackModel.finish _)|]; split; cbn; lia. Qed.
  Lemma spent_stop n (o : ends resumed) : rest_of o = 0 -> spent 0 0 n ([], o).
  Proof. intros H. unfold spent. cbn. rewrite H. lia. Qed.

  Lemma says_value_begin r : says 1 0 (rd_value_begin r).
  Proof. unfold rd_value_begin. destruct (r_pos r); split; unfold total, list_sum; cbn; lia. Qed.
  Lemma says_str_begin r : says 1 0 (rd_str_begin r).
  Proof. unfold rd_str_begin. destruct (r_pos r); split; unfold total, list_sum; cbn; lia. Qed.
  Lemma says_stack r x : says 0 0 (lift_stack r x).
  Proof. destruct x; split; cbn; lia. Qed.
  Lemma says_begin_container r : says 1 0 (begin_container r).
  Proof. unfold begin_container. destruct (r_pos r); split; unfold total, list_sum; cbn; lia. Qed.
  Lemma says_open r x e p : payload e = 0 -> says 2 0 (begin_container r >>> fun _ => lift_stack r x >>> fun r => say e >>> fun _ => ret (set_pos p r)).
  Proof.
    intros E. apply says_then with (c := 1) (p := 0) (c' := 1) (p' := 0); [apply says_begin_container|]. intros _.
    apply says_then with (c := 0) (p := 0) (c' := 1) (p' := 0); [apply says_stack|]. intros r'.
    apply says_then with (c := 1) (p := 0) (c' := 0) (p' := 0); [apply says_le with (c := 1) (p := payload e); [apply says_say|lia..]|]. intros _. apply says_ret.
  Qed.
  Lemma says_close (y : does unit) r x e (g : reader -> reader) : says 1 0 y -> payload e = 0 ->
    says 2 0 (y >>> fun _ => lift_stack r x >>> fun r => say e >>> fun _ => ret (g r)).
  Proof.
    intros Y E. apply says_then with (c := 1) (p := 0) (c' := 1) (p' := 0); [exact Y|]. intros _.
    apply says_then with (c := 0) (p := 0) (c' := 1) (p' := 0); [apply says_stack|]. intros r'.
    apply says_then with (c := 1) (p := 0) (c' := 0) (p' := 0); [apply says_le with (c := 1) (p := payload e); [apply says_say|lia..]|]. intros _. apply says_ret.
  Qed.
  Lemma number_split s : List.length (fst (number s)) + List.length (snd (number s)) = List.length s.
  Proof. induction s as [|b s IH]; [reflexivity|]. cbn [number]. destruct (number_byte b); [|reflexivity]. destruct (number s). cbn in *. lia. Qed.
  Lemma scan_size s f p s' : scan_fragment s = (f, p, s') -> List.length f + List.length s' <= List.length s.
  Proof.
    revert f p s'. induction s as [|b s IH]; intros f p s'; cbn [scan_fragment]; [intros [= <- <- <-]; cbn; lia|].
    destruct (byte_is 92 b); [intros [= <- <- <-]; cbn; lia|]. destruct (byte_is 34 b); [intros [= <- <- <-]; cbn; lia|].
    destruct (scan_fragment s) as [[f' p'] r]. intros [= <- <- <-]. specialize (IH _ _ _ eq_refl). cbn. lia.
  Qed.
  Lemma fragment_size s f p s' : str_fragment s = MOk (f, p, s') -> List.length f + List.length s' <= List.length s.
  Proof.
    unfold str_fragment. destruct s as [|b s]; [discriminate|]. destruct (byte_is 92 b).
    - destruct s as [|e s]; [discriminate|].
      repeat (destruct (byte_is _ e); [intros [= <- <- <-]; cbn; lia|]). discriminate.
    - destruct (scan_fragment (b :: s)) as [[f' p'] r] eqn:E. destruct (utf8 f'); [|discriminate]. intros [= <- <- <-].
      exact (scan_size _ _ _ _ E).
  Qed.
  (** A step forward in the text. *)
  Lemma resume_spent s r : spent 0 0 (List.length s) (resume s r).
  Proof.
    unfold resume. destruct (r_in_str r).
    - destruct (str_fragment s) as [[[f p] s']| |] eqn:E; [|apply spent_stop; reflexivity..].
      pose proof (str_fragment_len _ _ _ _ E) as L. apply fragment_size in E.
      eapply spent_le; [apply spent_then with (c := 1) (p := List.length f) (c' := 1) (p' := 0) (n := List.length s'); [apply (says_say (ETextFrag f))|]|lia..].
      intros _. destruct p; [eapply spent_le; [apply spent_more|lia..]|].
      eapply spent_le; [apply spent_then with (c := 1) (p := 0) (c' := 0) (p' := 0); [apply (says_say ETextEnd)|intros; apply spent_maybe]|lia..].
    - induction s as [|b s IH]; [apply (spent_maybe [])|]. cbn [resume_out].
      assert (More1 : forall x : does reader, says 2 0 x -> spent 0 0 (List.length (b :: s)) (rd_more s x)).
      { intros x X. eapply spent_le; [apply spent_then with (c' := 0) (p' := 0); [exact X|intros; apply spent_more]|cbn [List.length]; lia..]. }
      assert (Done1 : forall x : does reader, says 2 0 x -> spent 0 0 (List.length (b :: s)) (rd_done s x)).
      { intros x X. eapply spent_le; [apply spent_then with (c' := 0) (p' := 0); [exact X|intros; apply spent_maybe]|cbn [List.length]; lia..]. }
      assert (Word : forall w e, 4 <= List.length (bs w) -> payload e = 0 -> spent 0 0 (List.length (b :: s)) (rd_word w e (b :: s) r)).
      { intros w e W P. unfold rd_word. destruct (word (bs w) (b :: s)) as [s'|] eqn:E; [|apply spent_stop; reflexivity].
        apply word_len in E. eapply spent_le; [apply spent_then with (c := 1) (p := 0) (c' := 1) (p' := 0) (n := List.length s'); [apply says_value_begin|]|lia..].
        intros r'. eapply spent_le; [apply spent_then with (c := 1) (p := payload e) (c' := 0) (p' := 0); [apply says_say|intros; apply spent_maybe]|lia..]. }
      destruct (byte_is 34 b).
      { unfold rd_string. eapply spent_le; [apply spent_then with (c := 1) (p := 0) (c' := 3) (p' := 0) (n := List.length s); [apply says_str_begin|]|cbn [List.length]; lia..].
        intros r'. destruct (str_fragment s) as [[[f p] s']| |] eqn:E; [|eapply spent_le; [apply (spent_stop (List.length s)); reflexivity|lia..]..].
        apply fragment_size in E.
        eapply spent_le; [apply spent_then with (c := 1) (p := 0) (c' := 2) (p' := List.length f) (n := List.length s'); [apply (says_say (ETextBegin None))|]|lia..].
        intros _. eapply spent_le; [apply spent_then with (c := 1) (p := List.length f) (c' := 1) (p' := 0) (n := List.length s'); [apply (says_say (ETextFrag f))|]|lia..].
        intros _. destruct p; [eapply spent_le; [apply spent_more|lia..]|].
        eapply spent_le; [apply spent_then with (c := 1) (p := 0) (c' := 0) (p' := 0); [apply (says_say ETextEnd)|intros; apply spent_maybe]|lia..]. }
      destruct (byte_is 123 b); [apply More1, says_open; reflexivity|].
      destruct (byte_is 125 b); [apply Done1; unfold rd_map_end; apply says_close with (g := fun r => set_pos (stack_pos (r_stack r)) r); [|reflexivity]; destruct (r_pos r); split; unfold total, list_sum; cbn; lia|].
      destruct (byte_is 91 b); [apply More1, says_open; reflexivity|].
      destruct (byte_is 93 b); [apply Done1; unfold rd_seq_end; apply says_close with (g := fun r => set_pos (stack_pos (r_stack r)) r); [|reflexivity]; destruct (r_pos r); split; unfold total, list_sum; cbn; lia|].
      destruct (byte_is 58 b); [apply More1; unfold rd_map_key_end; destruct (r_pos r); split; unfold total, list_sum; cbn; lia|].
      destruct (byte_is 44 b); [apply More1; unfold rd_comma; destruct (r_pos r); split; unfold total, list_sum; cbn; lia|].
      destruct (byte_is 116 b); [apply Word; cbn; lia|].
      destruct (byte_is 102 b); [apply Word; cbn; lia|].
      destruct (byte_is 110 b); [apply Word; cbn; lia|].
      destruct (_ || _ || _ || _); [eapply spent_le; [exact IH|cbn [List.length]; lia..]|].
      destruct (_ || _) eqn:D; [|apply spent_stop; reflexivity].
      assert (NB : number_byte b = true).
      { unfold number_byte. unfold byte_is in D. destruct (_ && _); [reflexivity|]. cbn [orb] in *. rewrite D. reflexivity. }
      unfold rd_number. cbn [number]. rewrite NB. pose proof (number_split s) as NS. destruct (number s) as [n s'] eqn:E. cbn [fst snd] in NS.
      eapply spent_le; [apply spent_then with (c := 1) (p := 0) (c' := 7) (p' := S (List.length n)) (n := List.length s'); [apply says_value_begin|]|cbn [List.length]; lia..].
      intros r'.
      eapply spent_le; [apply spent_then with (c := 1) (p := 0) (c' := 6) (p' := S (List.length n)) (n := List.length s'); [apply (says_say (ETaggedBegin _ None None))|intros _]|lia..].
      eapply spent_le; [apply spent_then with (c := 1) (p := 0) (c' := 5) (p' := S (List.length n)) (n := List.length s'); [apply (says_say (ETaggedBegin _ None None))|intros _]|lia..].
      eapply spent_le; [apply spent_then with (c := 1) (p := 0) (c' := 4) (p' := S (List.length n)) (n := List.length s'); [apply (says_say (ETextBegin _))|intros _]|lia..].
      eapply spent_le; [apply spent_then with (c := 1) (p := S (List.length n)) (c' := 3) (p' := 0) (n := List.length s'); [apply (says_say (ETextFrag (b :: n)))|intros _]|lia..].
      eapply spent_le; [apply spent_then with (c := 1) (p := 0) (c' := 2) (p' := 0) (n := List.length s'); [apply (says_say ETextEnd)|intros _]|lia..].
      eapply spent_le; [apply spent_then with (c := 1) (p := 0) (c' := 1) (p' := 0) (n := List.length s'); [apply (says_say (ETaggedEnd _ None None))|intros _]|lia..].
      eapply spent_le; [apply spent_then with (c := 1) (p := 0) (c' := 0) (p' := 0) (n := List.length s'); [apply (says_say (ETaggedEnd _ None None))|intros _; apply spent_maybe]|lia..].
  Qed.
  Lemma resume_all_size n : forall s r es o, resume_all n s r = Some (es, o) ->
    List.length es <= 8 * List.length s /\ total payload es <= List.length s.
  Proof.
    induction n as [|n IH]; intros s r es o H; [discriminate|]. cbn [resume_all] in H.
    pose proof (resume_spent s r) as [A B]. destruct (resume s r) as [e1 [[s' r'|]| |]]; cbn [fst snd rest_of] in A, B.
    - destruct (resume_all n s' r') as [[e2 o2]|] eqn:E; [|discriminate]. injection H as <- <-.
      apply IH in E. rewrite app_length, total_app. lia.
    - injection H as <- <-. lia.
    - injection H as <- <-. lia.
    - injection H as <- <-. lia.
  Qed.
End Reader.

(** ** C75 *)

(** JSON: at most six bytes for each call and each byte handed over, whether the
    value is written to its end or fails. *)
Theorem C75_json_size r32 r64 v :
  match json_to_fmt bytes string_write r32 r64 [] v with
  | JOk s | JErr _ s => List.length s <= 6 * size_of r32 r64 (calls_of v)
  | JPanic => True
  end.
Proof.
  unfold json_to_fmt, run_impl, calls_of. destruct (flat v false) as [es ok]. cbn [fst].
  pose proof (grows_run olen (json_step bytes string_write r32 r64) (jcost r32 r64) (g_step r32 r64) (lower_all json_over es) (fm_new bytes [])) as H.
  pose proof (lower_all_cost r32 r64 es) as L.
  destruct (run _ _ _) as [f|f|]; cbn [bind]; [destruct ok| |exact I]; unfold grows, olen in H; cbn [f_out fm_new List.length] in H; lia.
Qed.

(** Debug text. [core]'s escapes of one character are no longer than six times its bytes. *)
Theorem C75_fmt_size r32 r64 uni v :
  (forall ch, List.length (List.concat (uni ch)) <= 6 * List.length ch) ->
  match fmt_to_write (fun w s => Ok (w ++ s)) r32 r64 uni [] v with
  | Ok s | Err s => List.length s <= 6 * size_of r32 r64 (calls_of v)
  | Panic => True
  end.
Proof.
  intros U. unfold fmt_to_write, to_token_write, run_impl, calls_of. destruct (flat v false) as [es ok]. cbn [fst].
  pose proof (grows_run wlen (fmt_step bytes (generic_tok (fun w s => Ok (w ++ s))) r32 r64 uni) (fcost r32 r64)
    (p_step r32 r64 uni U) (lower_all fmt_over es) (wr_new bytes [])) as H.
  pose proof (lower_all_fcost r32 r64 es) as L.
  match goal with |- context [run ?a ?b ?c] => change (grows wlen (total (fcost r32 r64) (lower_all fmt_over es)) (wr_new bytes []) (run a b c)) in H end.
  destruct (run _ _ _) as [f|f|]; cbn [bind]; [destruct ok| |exact I]; unfold grows, wlen, bytes in H; cbn [w_out wr_new List.length] in H; lia.
Qed.

(** A buffer: whatever was streamed into it, well formed or not, it keeps at most
    one part for each call and no byte twice, and reading it back makes at most
    three calls for each. *)
Theorem C75_buffer_size es :
  match run vbuf_step vbuf_new es with
  | Ok b | Err b =>
      List.length (parts b) <= List.length es /\ held_all (parts b) <= total payload es /\
      forall cs, vbuf_stream b = Some cs ->
        List.length (calls_of cs) <= 1 + 3 * List.length es /\ total payload (calls_of cs) <= 2 * total payload es
  | Panic => True
  end.
Proof.
  pose proof (grows_run (fun b => held_all (parts b)) vbuf_step payload (fun b e => proj1 (b_step b e)) es vbuf_new) as H.
  pose proof (grows_run (fun b => List.length (parts b)) vbuf_step (fun _ => 1) (fun b e => proj2 (b_step b e)) es vbuf_new) as L.
  assert (T : total (fun _ => 1) es = List.length es) by (clear; unfold total, list_sum; induction es as [|e es IH]; cbn; [reflexivity|rewrite IH; reflexivity]).
  assert (K : forall b, held_all (parts b) <= total payload es -> List.length (parts b) <= List.length es ->
    forall cs, vbuf_stream b = Some cs ->
      List.length (calls_of cs) <= 1 + 3 * List.length es /\ total payload (calls_of cs) <= 2 * total payload es).
  { intros b A B cs C. unfold vbuf_stream, stream_parts in C. destruct (parts b) as [|p ps].
    - injection C as <-. unfold calls_of, total, list_sum. cbn. lia.
    - apply replay_size in C as (es' & F & L' & P'). unfold calls_of. rewrite F. cbn [fst]. lia. }
  rewrite T in L. unfold grows in H, L. cbn [vbuf_new parts held_all map List.length] in H, L.
  destruct (run vbuf_step vbuf_new es) as [b|b|]; [| |exact I]; cbn in H; (split; [lia|split; [exact H|apply K; [exact H|lia]]]).
Qed.

(** The JSON reader: at most eight calls for each byte of the text, valid or not,
    and no byte handed over twice. *)
Theorem C75_reader_size s :
  List.length (fst (from_slice s)) <= 8 * List.length s /\ total payload (fst (from_slice s)) <= List.length s.
Proof.
  unfold from_slice. destruct (resume_all _ s reader_new) as [[es o]|] eqn:E; [exact (resume_all_size _ _ _ _ _ E)|]. cbn. lia.
Qed.

(** The bounds are reached, or nearly. *)
Example C75_json_case : exists v s, json_to_fmt bytes string_write (fun _ => []) (fun _ => []) [] v = JOk s /\
  List.length s = 26 /\ size_of (fun _ => []) (fun _ => []) (calls_of v) = 7.
Proof. exists [CV (str_calls (map ascii_of_N [1; 2; 3; 4]%N))]. eexists. split; [reflexivity|]. vm_compute. split; reflexivity. Qed.
Example C75_fmt_case : exists v s, fmt_to_write (fun w s => Ok (w ++ s)) (fun _ => []) (fun _ => []) (fun ch => [ch]) [] v = Ok s /\
  List.length s = 26 /\ size_of (fun _ => []) (fun _ => []) (calls_of v) = 7 /\
  (forall ch : bytes, List.length (List.concat [ch]) <= 6 * List.length ch).
Proof.
  exists [CV (str_calls (map ascii_of_N [16; 17; 18; 19]%N))]. eexists. split; [reflexivity|]. split; [reflexivity|]. split; [reflexivity|].
  intros ch. cbn. rewrite app_nil_r. lia.
Qed.
Example C75_buffer_case : exists b cs, run vbuf_step vbuf_new [ESeqBegin None; ESeqValBegin; ETextBegin None; ETextFragC (bs "ab"); ETextEnd; ESeqValEnd; ESeqEnd] = Ok b /\
  vbuf_stream b = Some cs /\ List.length (parts b) = 3 /\ held_all (parts b) = 2 /\ List.length (calls_of cs) = 7.
Proof. eexists. eexists. split; [reflexivity|]. split; [reflexivity|]. vm_compute. repeat split. Qed.
Example C75_reader_case : List.length (fst (from_slice (bs "[1,2]"))) = 20 /\ total payload (fst (from_slice (bs "[1,2]"))) = 2.
Proof. split; reflexivity. Qed.

Print Assumptions C75_json_size.
Print Assumptions C75_fmt_size.
Print Assumptions C75_buffer_size.
Print Assumptions C75_reader_size.
