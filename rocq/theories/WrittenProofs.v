(** * WrittenProofs: the formatter writes the text of WrittenSpec.v *)

From Verif Require Import Base Event Tree LowerModel FlatProofs LowerProofs MethProofs LowerSpec DataModel DataProofs DecProofs
  JsonModel JsonGrammar JsonSpec JsonNumProofs JsonMethProofs JsonProofs JsonImageProofs JsonTextSpec JsonTextProofs WrittenSpec.

Section Written.
  Variable ryu32 ryu64 : float -> bytes.
  Hypothesis P32 : json_printer ryu32.
  Hypothesis P64 : json_printer ryu64.
  Notation step := (json_step bytes string_write ryu32 ryu64).
  Notation jm := (meth json_over step).
  Notation J := (run jm).
  Notation written := (written ryu32 ryu64).
  Notation key_text := (key_text ryu32 ryu64).
  Notation block := (block ryu32 ryu64).

  Ltac cb := cbn [f_it f_cde f_tq f_th f_err f_out set_out set_it set_cde set_tq set_th st kst bind].
  Ltac fin := cbv beta iota zeta delta [set_out set_it set_cde set_tq set_th set_err st kst f_it f_cde f_tq f_th f_err f_out bind];
    rewrite <- ?app_assoc; reflexivity.

  Definition writes (t : tree) : Prop :=
    ordinary t -> forall it cde out, exists it',
      J (st it cde out) (emit t) = Ok (st it' false (out ++ written it t)) /\
      (is_variant t = true -> it' = closes_brace t).

  Lemma opening_opened it l i : opening it l i = opened it l i.
  Proof. unfold opening, opened, name_open. destruct it; [|reflexivity]. destruct (name_of l i); [|reflexivity]. rewrite json_string_esc. reflexivity. Qed.
  Lemma itb_any l i it cde out : exists cde',
    internally_tagged_begin bytes string_write l i (st it cde out) = Ok (st false cde' (out ++ opening it l i)).
  Proof. rewrite opening_opened. apply itb. unfold starts. destruct it; auto. Qed.

  Lemma seq_begin it cde out : j_seq_value_begin bytes string_write (st it cde out) = Ok (st false cde (out ++ sep cde)).
  Proof. unfold j_seq_value_begin. cbv zeta. cbn [set_it f_cde st]. destruct cde; cbn [sep]; [rewrite app_nil_r; reflexivity|]. reflexivity. Qed.
  Lemma record_begin fl it cde out : ident_ok fl = true ->
    j_record_value_begin bytes string_write fl (st it cde out) = Ok (st false cde (out ++ sep cde ++ quoted (esc (l_text fl)) ++ bs ":")).
  Proof.
    intros Id. unfold j_record_value_begin. cbv zeta. cbn [set_it f_cde st].
    assert (X : forall f : fm bytes, (if otag_is (l_tag fl) VALUE_IDENT then put bytes string_write (l_text fl) f
                   else lift bytes f (escape_str bytes string_write (l_text fl) (f_out f))) =
                Ok (set_out bytes (f_out f ++ esc (l_text fl)) f)).
    { intros f. rewrite escape_str_pure. unfold ident_ok in Id. destruct (otag_is (l_tag fl) VALUE_IDENT); [|reflexivity].
      cbn [negb orb] in Id. rewrite put_pure. rewrite plain_esc by exact Id. reflexivity. }
    destruct cde; rewrite put_pure; cbn [bind]; rewrite X; cbn [bind]; rewrite put_pure; unfold quoted; cbn [sep]; fin.
  Qed.
  Lemma value_written v b e (Hb : forall f, jm f b = j_seq_value_begin bytes string_write f) (He : forall f, jm f e = Ok f) :
    writes v -> ordinary v -> block (b :: emit v ++ [e]) (written false v).
  Proof.
    intros P O it cde out. rewrite run_cons, Hb, seq_begin. cbn [bind]. rewrite run_app.
    destruct (P O false cde (out ++ sep cde)) as (it' & R & _).
    rewrite R. cbn [bind]. rewrite run_one, He. exists it'. rewrite <- app_assoc. reflexivity.
  Qed.
  Lemma field_written v b e fl (Hb : forall f, jm f b = j_record_value_begin bytes string_write fl f) (He : forall f, jm f e = Ok f) :
    writes v -> ordinary v -> ident_ok fl = true -> block (b :: emit v ++ [e]) (member (l_text fl) (written false v)).
  Proof.
    intros P O Id it cde out. rewrite run_cons, Hb, record_begin by exact Id. cbn [bind]. rewrite run_app.
    destruct (P O false cde (out ++ sep cde ++ quoted (esc (l_text fl)) ++ bs ":")) as (it' & R & _).
    rewrite R. cbn [bind]. rewrite run_one, He. exists it'. unfold member. rewrite json_string_esc, <- !app_assoc. reflexivity.
  Qed.
  Lemma entry_written k v s :
    writes v -> key_text false k = Some s -> ordinary v ->
    block (EMapKeyBegin :: emit k ++ EMapKeyEnd :: EMapValBegin :: emit v ++ [EMapValEnd]) (member s (written (key_leaks k) v)).
  Proof.
    intros P K O it cde out. rewrite run_cons, jm_over by reflexivity. cbn [json_step].
    assert (B : j_map_key_begin bytes string_write (st it cde out) = Ok (kst false cde (out ++ sep cde ++ [dquote]))).
    { unfold j_map_key_begin. cbv zeta. cbn [set_it set_tq f_cde st]. destruct cde; reflexivity. }
    rewrite B. cbn [bind]. rewrite run_app.
    rewrite (key_run ryu32 ryu64 P32 P64 k false s K ltac:(discriminate) false cde _ eq_refl). cbn [bind].
    rewrite run_cons, jm_over by reflexivity. cbn [json_step].
    assert (E : forall it cde out, j_map_key_end bytes string_write (kst it cde out) = Ok (st it cde (out ++ [dquote; ":"%char]))) by reflexivity.
    rewrite E. cbn [bind]. rewrite run_cons, jm_over by reflexivity. cbn [json_step bind]. rewrite run_app.
    destruct (P O (key_leaks k) false (((out ++ sep cde ++ [dquote]) ++ esc s) ++ [dquote; ":"%char])) as (it' & R & _).
    rewrite R. cbn [bind]. rewrite run_one, jm_over by reflexivity. cbn [json_step].
    exists it'. unfold member. rewrite json_string_esc. unfold quoted. rewrite <- !app_assoc. reflexivity.
  Qed.

  Lemma named_written it cde out l i (body : fm bytes -> res (fm bytes)) x :
    (forall cde out, exists it', body (st false cde out) = Ok (st it' false (out ++ x))) ->
    exists it', (internally_tagged_begin bytes string_write l i (st it cde out) >>= body >>= internally_tagged_end bytes l i) =
      Ok (st it' false (out ++ opening it l i ++ x)) /\ it' = is_named l i.
  Proof.
    intros B. destruct (itb_any l i it cde out) as (cde' & O). rewrite O. cbn [bind].
    destruct (B cde' (out ++ opening it l i)) as (it' & R). rewrite R. cbn [bind]. rewrite ite.
    exists (is_named l i). split; [fin|reflexivity].
  Qed.

  Lemma all_written t : writes t.
  Proof.
    induction t using tree_ind'; intros O it cde out; cbn [ordinary] in O; cbn [WrittenSpec.written compact is_variant closes_brace].
    1-5: exists it; split; [|discriminate]; cbn [emit]; rewrite run_one, jm_over by reflexivity; cbn [json_step].
    - unfold j_null. rewrite put_pure. fin.
    - unfold j_bool. rewrite put_pure. fin.
    - unfold j_int. rewrite put_pure. fin.
    - unfold j_float, float_key. cbv zeta. destruct (is_nan f || is_infinite f); [unfold j_null|]; rewrite put_pure; fin.
    - unfold j_float, float_key. cbv zeta. destruct (is_nan f || is_infinite f); [unfold j_null|]; rewrite put_pure; fin.
    - exists it. split; [|discriminate]. rewrite json_string_esc. apply text_run.
    - cbn [emit]. rewrite run_cons, jm_bin_begin.
      destruct (array_text ryu32 ryu64 (map (fun b => [ESeqValBegin; EInt U8 (byte_val b); ESeqValEnd]) (frags_text fs))
                  (map (fun b => dec (byte_val b)) (frags_text fs)) it cde out) as (it' & R).
      { induction (frags_text fs); cbn [map]; constructor; [apply byte_text|assumption]. }
      exists it'. split; [|discriminate].
      rewrite <- R. destruct (j_seq_begin bytes string_write (st it cde out)); cbn [bind]; [|reflexivity..].
      rewrite run_app, bin_blocks. destruct (J a _); cbn [bind]; [|reflexivity..]. rewrite run_one, jm_bin_end. reflexivity.
    - (* tag *)
      exists false. split; [|reflexivity].
      cbn [emit]. rewrite run_one, jm_over by reflexivity. cbn [json_step]. unfold j_tag.
      destruct (otag_is t RUST_OPTION_NONE); [unfold j_null; cbv zeta; rewrite put_pure; fin|].
      destruct l as [l|].
      + unfold j_str, j_text_begin, text_fragment_computed, j_text_end. cb. cbv zeta. rewrite put_pure. cb.
        rewrite escape_str_pure. cbn [lift bind]. cb. rewrite put_pure, json_string_esc. unfold quoted. fin.
      + unfold index_i64. destruct i as [i|]; [rewrite index_to_spec by discriminate; destruct (fits I64 (i_val i))|].
        * unfold j_int. cbv zeta. rewrite put_pure. fin.
        * unfold j_null. cbv zeta. rewrite put_pure. fin.
        * unfold j_null. cbv zeta. rewrite put_pure. fin.
    - (* hint *)
      cbn [emit]. rewrite run_cons, jm_hint. cbn [bind]. destruct (IHt O it cde out) as (it' & R & _). exists it'. split; [exact R|discriminate].
    - (* tagged *)
      destruct O as (Rw & O).
      cbn [emit]. rewrite run_cons, jm_over by reflexivity. cbn [json_step]. unfold j_tagged_begin.
      unfold is_raw in Rw. apply orb_false_iff in Rw as [Rw R4]. apply orb_false_iff in Rw as [Rw R3].
      apply orb_false_iff in Rw as [R1 R2]. rewrite R1, R2, R3, R4. cbv zeta.
      destruct (named_written it cde out l i (fun f => J (set_cde bytes true f) (emit t0)) (written false t0)) as (it' & R & E).
      { intros cde0 out0. destruct (IHt O false true out0) as (it' & R & _). exists it'. exact R. }
      exists it'. split; [|intros _; exact E]. rewrite <- R.
      destruct (internally_tagged_begin bytes string_write l i (st it cde out)) as [f| |] eqn:Ib; cbn [bind]; [|reflexivity..].
      rewrite run_app.
      destruct (J (set_cde bytes true f) (emit t0)) as [f1| |] eqn:Jb; cbn [bind]; [|reflexivity..].
      rewrite run_one, jm_over by reflexivity. cbn [json_step]. unfold j_tagged_end. rewrite R1, R2, R3, R4. cbn [bind].
      cbn [bind] in R. rewrite Jb in R. cbn [bind] in R. rewrite ite in R.
      assert (Cd : f_cde f1 = false) by (apply (f_equal (fun r => match r with Ok f => f_cde f | _ => false end)) in R; exact R).
      rewrite Cd. reflexivity.
    - (* enum *)
      destruct O as [V O].
      cbn [emit]. rewrite run_cons, jm_over by reflexivity. cbn [json_step]. unfold j_enum_begin.
      destruct (itb_any l i it cde out) as (cde' & Op). rewrite Op. cbn [bind].
      change (set_cde bytes true (set_it bytes true (st false cde' (out ++ opening it l i)))) with (st true true (out ++ opening it l i)).
      rewrite run_app.
      destruct (IHt O true true (out ++ opening it l i)) as (it' & R & E).
      rewrite R. cbn [bind]. rewrite run_one, jm_over by reflexivity. cbn [json_step]. unfold j_enum_end. cb.
      rewrite (E V). clear E R.
      exists (closes_brace t0 || is_named l i). split; [|reflexivity].
      destruct (closes_brace t0); cbn [orb].
      + unfold j_map_end. rewrite put_pure. fin.
      + rewrite ite, app_nil_r. fin.
    - (* seq *)
      cbn [emit]. rewrite run_cons, jm_over by reflexivity. cbn [json_step].
      destruct (array_text ryu32 ryu64 (map (fun v => ESeqValBegin :: emit v ++ [ESeqValEnd]) vs) (map (written false) vs) it cde out) as (it' & R).
      { induction H as [|v vs Hv HF IH]; cbn [map]; constructor.
        - apply value_written; try (intros; apply jm_over; reflexivity); [exact Hv|apply O].
        - apply IH, O. }
      exists it'. split; [|discriminate].
      rewrite <- R. destruct (j_seq_begin bytes string_write (st it cde out)); cbn [bind]; [|reflexivity..].
      rewrite run_app, flat_map_blocks. destruct (J a _); cbn [bind]; [|reflexivity..]. rewrite run_one, jm_over by reflexivity. reflexivity.
    - (* map *)
      cbn [emit]. rewrite run_cons, jm_over by reflexivity. cbn [json_step].
      set (blk := fun kv : tree * tree => let (k, v) := kv in EMapKeyBegin :: emit k ++ EMapKeyEnd :: EMapValBegin :: emit v ++ [EMapValEnd]).
      set (txt := fun kv : tree * tree => let (k, v) := kv in member (match key_text false k with Some s => s | None => [] end) (written (key_leaks k) v)).
      destruct (object_text ryu32 ryu64 (map blk es) (map txt es) it cde out) as (it' & R).
      { induction H as [|[k v] es [Hk Hv] HF IH]; cbn [map]; constructor.
        - destruct O as (K & O & _). cbn [blk txt]. destruct (key_some ryu32 ryu64 k false K) as (s & E). rewrite E.
          apply entry_written; assumption.
        - apply IH, O. }
      exists it'. split; [|discriminate].
      rewrite <- R. destruct (j_map_begin bytes string_write (st it cde out)); cbn [bind]; [|reflexivity..].
      rewrite run_app, flat_map_blocks. fold blk. destruct (J a _); cbn [bind]; [|reflexivity..]. rewrite run_one, jm_over by reflexivity. reflexivity.
    - (* record *)
      cbn [emit]. rewrite run_cons, jm_over by reflexivity. cbn [json_step].
      set (blk := fun f : option tag * label * tree => let (p, v) := f in let (ft, fl) := p in ERecordValBegin ft fl :: emit v ++ [ERecordValEnd ft fl]).
      set (txt := fun f : option tag * label * tree => let (p, v) := f in let (ft, fl) := p in member (l_text fl) (written false v)).
      assert (Bl : Forall2 block (map blk fs) (map txt fs)).
      { induction H as [|[[ft fl] v] fs Hv HF IH]; cbn [map]; constructor.
        - destruct O as (Id & O & _). apply field_written; try assumption; [intros; apply jm_over; reflexivity|intros; apply jm_record_val_end].
        - apply IH, O. }
      destruct (named_written it cde out l i
        (fun f => j_map_begin bytes string_write f >>= fun f => J f (List.concat (map blk fs)) >>= j_map_end bytes string_write)
        _ (fun c o => object_text ryu32 ryu64 _ _ false c o Bl)) as (it' & R & E).
      exists it'. split; [|intros _; exact E]. rewrite <- R. unfold j_record_begin.
      rewrite !bind_assoc. destruct (internally_tagged_begin bytes string_write l i (st it cde out)); cbn [bind]; [|reflexivity..].
      rewrite !bind_assoc. destruct (j_map_begin bytes string_write a); cbn [bind]; [|reflexivity..].
      rewrite run_app, flat_map_blocks. fold blk. destruct (J a0 _); cbn [bind]; [|reflexivity..].
      rewrite run_one, jm_over by reflexivity. reflexivity.
    - (* tuple *)
      cbn [emit]. rewrite run_cons, jm_over by reflexivity. cbn [json_step].
      set (blk := fun f : option tag * index * tree => let (p, v) := f in let (ft, fi) := p in ETupleValBegin ft fi :: emit v ++ [ETupleValEnd ft fi]).
      set (txt := fun f : option tag * index * tree => let (p, v) := f in let (ft, fi) := p in written false v).
      assert (Bl : Forall2 block (map blk fs) (map txt fs)).
      { induction H as [|[[ft fi] v] fs Hv HF IH]; cbn [map]; constructor.
        - destruct O as (O & _). apply value_written; try assumption; [intros; apply jm_tuple_val_begin|intros; apply jm_tuple_val_end].
        - apply IH, O. }
      destruct (named_written it cde out l i
        (fun f => j_seq_begin bytes string_write f >>= fun f => J f (List.concat (map blk fs)) >>= j_seq_end bytes string_write)
        _ (fun c o => array_text ryu32 ryu64 _ _ false c o Bl)) as (it' & R & E).
      exists it'. split; [|intros _; exact E]. rewrite <- R. unfold j_tuple_begin.
      rewrite !bind_assoc. destruct (internally_tagged_begin bytes string_write l i (st it cde out)); cbn [bind]; [|reflexivity..].
      rewrite !bind_assoc. destruct (j_seq_begin bytes string_write a); cbn [bind]; [|reflexivity..].
      rewrite run_app, flat_map_blocks. fold blk. destruct (J a0 _); cbn [bind]; [|reflexivity..].
      rewrite run_one, jm_over by reflexivity. reflexivity.
    - (* record tuple *)
      cbn [emit]. rewrite run_cons, jm_rectup_begin.
      set (blk := fun f : option tag * label * index * tree => let (p, v) := f in let (p, fi) := p in let (ft, fl) := p in
                    ERecTupValBegin ft fl fi :: emit v ++ [ERecTupValEnd ft fl fi]).
      set (txt := fun f : option tag * label * index * tree => let (p, v) := f in let (p, fi) := p in let (ft, fl) := p in member (l_text fl) (written false v)).
      assert (Bl : Forall2 block (map blk fs) (map txt fs)).
      { induction H as [|[[[ft fl] fi] v] fs Hv HF IH]; cbn [map]; constructor.
        - destruct O as (Id & O & _). apply field_written; try assumption; [intros; apply jm_rectup_val_begin|intros; apply jm_rectup_val_end].
        - apply IH, O. }
      destruct (named_written it cde out l i
        (fun f => j_map_begin bytes string_write f >>= fun f => J f (List.concat (map blk fs)) >>= j_map_end bytes string_write)
        _ (fun c o => object_text ryu32 ryu64 _ _ false c o Bl)) as (it' & R & E).
      exists it'. split; [|intros _; exact E]. rewrite <- R. unfold j_record_begin.
      rewrite !bind_assoc. destruct (internally_tagged_begin bytes string_write l i (st it cde out)); cbn [bind]; [|reflexivity..].
      rewrite !bind_assoc. destruct (j_map_begin bytes string_write a); cbn [bind]; [|reflexivity..].
      rewrite run_app, flat_map_blocks. fold blk. destruct (J a0 _); cbn [bind]; [|reflexivity..].
      rewrite run_one, jm_rectup_end. reflexivity.
  Qed.
End Written.
