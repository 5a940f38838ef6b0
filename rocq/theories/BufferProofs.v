(** * BufferProofs *)

From Verif Require Import Base Event Tree LowerModel FlatProofs DataModel FragModel FragProofs BufferModel BufferSpec.

Lemma own_kept l : label_to_owned l = kept_label l.
Proof. destruct l as [t [| |] g]; reflexivity. Qed.
Lemma own_opt l : own l = option_map kept_label l.
Proof. destruct l as [l|]; [|reflexivity]. cbn. rewrite own_kept. reflexivity. Qed.

(** ** Lists of parts *)
Lemma set_part_app ps p q r : set_part (ps ++ p :: r) (List.length ps) q = ps ++ q :: r.
Proof. induction ps as [|x ps IH]; cbn; [reflexivity|rewrite IH; reflexivity]. Qed.
Lemma nth_app_len {A} (ps : list A) p r : nth_error (ps ++ p :: r) (List.length ps) = Some p.
Proof. rewrite nth_error_app2, Nat.sub_diag by lia. reflexivity. Qed.
Lemma last_part_snoc ps p : last_part (ps ++ [p]) = Some p.
Proof. unfold last_part. rewrite rev_app_distr. reflexivity. Qed.
Lemma set_last_snoc ps p q : set_last (ps ++ [p]) q = ps ++ [q].
Proof. unfold set_last. rewrite removelast_last. reflexivity. Qed.
Lemma last_part_some ps p : last_part ps = Some p -> exists qs, ps = qs ++ [p].
Proof.
  unfold last_part. destruct (rev ps) as [|x r] eqn:E; [discriminate|]. intros [= ->].
  exists (rev r). rewrite <- (rev_involutive ps), E. reflexivity.
Qed.
Lemma last_part_none ps : last_part ps = None -> ps = [].
Proof.
  unfold last_part. destruct (rev ps) as [|x r] eqn:E; [|discriminate]. intros _.
  rewrite <- (rev_involutive ps), E. reflexivity.
Qed.

Lemma push_end_body p k body st tb er :
  push_end (MkVB (p ++ PNode 0 k :: body) (List.length p :: st) tb er) =
  Ok (MkVB (p ++ PNode (List.length body) k :: body) st tb er).
Proof.
  unfold push_end. cbn [stack parts in_tb err]. rewrite nth_app_len, set_part_app.
  rewrite app_length. cbn [List.length].
  replace (List.length p + S (List.length body) - List.length p - 1) with (List.length body) by lia.
  reflexivity.
Qed.

(** ** Buffering a well-formed value *)

Definition frag_cow (fs : list (bool * bytes)) : cow :=
  fold_left (fun c (f : bool * bytes) => if fst f then frag_push c (snd f) else frag_push_computed c (snd f)) fs text_buf_new.

Fixpoint parts_of (t : tree) : list part :=
  let wrap (k : node) (body : list part) := PNode (List.length body) k :: body in
  match t with
  | TNull => [PLeaf VNull]
  | TBool b => [PLeaf (VBool b)]
  | TInt t z => [PLeaf (VInt t z)]
  | TF32 f => [PLeaf (VF32 f)]
  | TF64 f => [PLeaf (VF64 f)]
  | TText _ fs => [PText (frag_cow fs)]
  | TBin _ fs => [PBin (frag_cow fs)]
  | TTag t l i => [PLeaf (VTag t (own l) i)]
  | THint t v => PLeaf (VTagHint t) :: parts_of v
  | TTagged t l i v => wrap (NTagged t (own l) i) (parts_of v)
  | TEnum t l i v => wrap (NEnum t (own l) i) (parts_of v)
  | TSeq n vs => wrap (NSeq n) (flat_map (fun v => wrap NSeqValue (parts_of v)) vs)
  | TMap n es =>
      wrap (NMap n) (flat_map (fun kv => match kv with (k, v) =>
                       wrap NMapKey (parts_of k) ++ wrap NMapValue (parts_of v) end) es)
  | TRecord t l i n fs =>
      wrap (NRecord t (own l) i n)
        (flat_map (fun f => match f with (ft, fl, v) =>
                     wrap (NRecordValue ft (label_to_owned fl)) (parts_of v) end) fs)
  | TTuple t l i n fs =>
      wrap (NTuple t (own l) i n)
        (flat_map (fun f => match f with (ft, fi, v) => wrap (NTupleValue ft fi) (parts_of v) end) fs)
  | TRecTup t l i n fs =>
      wrap (NRecTup t (own l) i n)
        (flat_map (fun f => match f with (ft, fl, fi, v) =>
                     wrap (NRecTupValue ft (label_to_owned fl) fi) (parts_of v) end) fs)
  end.

(** [adds es ps]: outside a text, the calls [es] append the parts [ps]. *)
Definition adds (es : list ev) (ps : list part) : Prop :=
  forall p st er, run vbuf_step (MkVB p st false er) es = Ok (MkVB (p ++ ps) st false er).

Lemma adds_nil : adds [] [].
Proof. intros p st er. cbn. rewrite app_nil_r. reflexivity. Qed.
Lemma adds_app es1 es2 ps1 ps2 : adds es1 ps1 -> adds es2 ps2 -> adds (es1 ++ es2) (ps1 ++ ps2).
Proof.
  intros A B p st er. rewrite run_app, A. cbn [bind]. rewrite B, app_assoc. reflexivity.
Qed.
Lemma adds_flat_map {A} (f : A -> list ev) (g : A -> list part) l :
  Forall (fun x => adds (f x) (g x)) l -> adds (flat_map f l) (flat_map g l).
Proof.
  induction 1 as [|x l Hx Hl IH]; [apply adds_nil|]. cbn [flat_map]. apply adds_app; assumption.
Qed.
Lemma adds_wrap b e k es ps :
  (forall s, vbuf_step s b = Ok (push_begin s k)) -> (forall s, vbuf_step s e = push_end s) ->
  adds es ps -> adds (b :: es ++ [e]) (PNode (List.length ps) k :: ps).
Proof.
  intros B E A p st er. rewrite run_cons, B. unfold push_begin. cbn [bind parts stack in_tb err].
  rewrite run_app, A. cbn [bind]. rewrite run_cons, E.
  rewrite <- app_assoc. cbn [app]. rewrite push_end_body. cbn [bind run]. reflexivity.
Qed.
Lemma adds_text_frags text fs : forall c p st er,
  run vbuf_step (MkVB (p ++ [if text : bool then PText c else PBin c]) st true er)
      (map (if text then text_frag else bin_frag) fs) =
  Ok (MkVB (p ++ [if text then
       PText (fold_left (fun c (f : bool * bytes) => if fst f then frag_push c (snd f) else frag_push_computed c (snd f)) fs c)
     else PBin (fold_left (fun c (f : bool * bytes) => if fst f then frag_push c (snd f) else frag_push_computed c (snd f)) fs c)]) st true er).
Proof.
  induction fs as [|[b s] fs IH]; intros c p st er; [destruct text; reflexivity|].
  destruct text, b; cbn [map fold_left fst snd]; rewrite run_cons; cbn [text_frag bin_frag fst snd vbuf_step];
    unfold push_frag; cbn [parts]; rewrite last_part_snoc, set_last_snoc; cbn [bind stack in_tb err];
    [exact (IH (frag_push c s) p st er) | exact (IH (frag_push_computed c s) p st er)
    |exact (IH (frag_push c s) p st er) | exact (IH (frag_push_computed c s) p st er)].
Qed.

Lemma adds_tree t : adds (emit t) (parts_of t).
Proof.
  induction t using tree_ind'; cbn [emit parts_of]; try (intros p st er; reflexivity).
  - intros p st er. rewrite run_cons. cbn [vbuf_step bind]. unfold set_in_tb, push_part. cbn [parts stack in_tb err].
    rewrite run_app. rewrite (adds_text_frags true fs). reflexivity.
  - intros p st er. rewrite run_cons. cbn [vbuf_step bind]. unfold set_in_tb, push_part. cbn [parts stack in_tb err].
    rewrite run_app. rewrite (adds_text_frags false fs). reflexivity.
  - apply (adds_app [ETagHint t] _ [PLeaf (VTagHint t)]); [intros p st er; reflexivity|exact IHt].
  - apply adds_wrap; [reflexivity|reflexivity|exact IHt].
  - apply adds_wrap; [reflexivity|reflexivity|exact IHt].
  - apply adds_wrap; [reflexivity|reflexivity|]. apply adds_flat_map.
    eapply Forall_impl; [|exact H]. intros v Hv. apply adds_wrap; [reflexivity|reflexivity|exact Hv].
  - apply adds_wrap; [reflexivity|reflexivity|]. apply adds_flat_map.
    eapply Forall_impl; [|exact H]. intros [k v] [Hk Hv]. cbn [fst snd] in *.
    replace (EMapKeyBegin :: emit k ++ EMapKeyEnd :: EMapValBegin :: emit v ++ [EMapValEnd])
      with ((EMapKeyBegin :: emit k ++ [EMapKeyEnd]) ++ (EMapValBegin :: emit v ++ [EMapValEnd]))
      by (cbn; rewrite <- app_assoc; reflexivity).
    apply adds_app; (apply adds_wrap; [reflexivity|reflexivity|assumption]).
  - apply adds_wrap; [reflexivity|reflexivity|]. apply adds_flat_map.
    eapply Forall_impl; [|exact H]. intros [[ft fl] v] Hv. apply adds_wrap; [reflexivity|reflexivity|exact Hv].
  - apply adds_wrap; [reflexivity|reflexivity|]. apply adds_flat_map.
    eapply Forall_impl; [|exact H]. intros [[ft fi] v] Hv. apply adds_wrap; [reflexivity|reflexivity|exact Hv].
  - apply adds_wrap; [reflexivity|reflexivity|]. apply adds_flat_map.
    eapply Forall_impl; [|exact H]. intros [[[ft fl] fi] v] Hv. apply adds_wrap; [reflexivity|reflexivity|exact Hv].
Qed.

(** ** Replaying parts *)

(** Properly nested parts and the calls they replay. *)
Inductive plays : list part -> list call -> Prop :=
| plays_nil : plays [] []
| plays_leaf k ps cs : plays ps cs -> plays (PLeaf k :: ps) (CE (leaf_ev k) :: cs)
| plays_text c ps cs : plays ps cs -> plays (PText c :: ps) (text_buf_ref c ++ cs)
| plays_bin c ps cs : plays ps cs -> plays (PBin c :: ps) (bin_buf_ref c ++ cs)
| plays_node k body ps cb cs : plays body cb -> plays ps cs ->
    plays (PNode (List.length body) k :: body ++ ps) (CE (begin_ev k) :: cb ++ CE (end_ev k) :: cs).

Lemma plays_replay ps cs : plays ps cs -> forall fuel, List.length ps <= fuel -> replay fuel ps = Some cs.
Proof.
  induction 1 as [|k ps cs _ IH|c ps cs _ IH|c ps cs _ IH|k body ps cb cs _ IH1 _ IH2]; intros fuel F.
  - destruct fuel; reflexivity.
  - destruct fuel as [|fuel]; cbn [List.length] in F; [lia|]. cbn [replay]. rewrite IH by lia. reflexivity.
  - destruct fuel as [|fuel]; cbn [List.length] in F; [lia|]. cbn [replay]. rewrite IH by lia. reflexivity.
  - destruct fuel as [|fuel]; cbn [List.length] in F; [lia|]. cbn [replay]. rewrite IH by lia. reflexivity.
  - destruct fuel as [|fuel]; cbn [List.length] in F; [lia|]. rewrite app_length in F. cbn [replay].
    destruct (Nat.leb_spec (List.length body) (List.length (body ++ ps))) as [_|X]; [|rewrite app_length in X; lia].
    rewrite firstn_app, skipn_app, firstn_all, skipn_all, Nat.sub_diag. cbn [firstn skipn app].
    rewrite app_nil_r, IH1, IH2 by lia. reflexivity.
Qed.

Lemma plays_app ps cs qs ds : plays ps cs -> plays qs ds -> plays (ps ++ qs) (cs ++ ds).
Proof.
  induction 1 as [|k ps cs _ IH|c ps cs _ IH|c ps cs _ IH|k body ps cb cs H1 IH1 _ IH2]; intros Q; cbn [app].
  - exact Q.
  - constructor; auto.
  - rewrite <- app_assoc. constructor; auto.
  - rewrite <- app_assoc. constructor; auto.
  - rewrite <- !app_assoc. cbn [app]. constructor; auto.
Qed.

(** [acts ps es]: the calls replayed by [ps] flatten to [es]. *)
Definition acts (ps : list part) (es : list ev) : Prop :=
  exists cs, plays ps cs /\ flat cs false = (es, true).

Lemma flat_app_ok a b x y comp : flat a comp = (x, true) -> flat b comp = (y, true) -> flat (a ++ b) comp = (x ++ y, true).
Proof. intros A B. rewrite flat_app, A, B. reflexivity. Qed.
Lemma flat_CE1 e cs es : flat cs false = (es, true) -> flat (CE e :: cs) false = (e :: es, true).
Proof. intros A. rewrite flat_cons, A. reflexivity. Qed.

Lemma acts_nil : acts [] [].
Proof. exists []. split; [constructor|reflexivity]. Qed.
Lemma acts_app ps es qs fs : acts ps es -> acts qs fs -> acts (ps ++ qs) (es ++ fs).
Proof.
  intros (cs & P & E) (ds & Q & F). exists (cs ++ ds). split; [apply plays_app; assumption|].
  apply flat_app_ok; assumption.
Qed.
Lemma acts_flat_map {A} (g : A -> list part) (f : A -> list ev) l :
  Forall (fun x => acts (g x) (f x)) l -> acts (flat_map g l) (flat_map f l).
Proof. induction 1; [apply acts_nil|]. cbn [flat_map]. apply acts_app; assumption. Qed.
Lemma acts_leaf k : acts [PLeaf k] [leaf_ev k].
Proof. exists [CE (leaf_ev k)]. split; [repeat constructor|reflexivity]. Qed.
Lemma acts_node k ps es : acts ps es -> acts (PNode (List.length ps) k :: ps) (begin_ev k :: es ++ [end_ev k]).
Proof.
  intros (cs & P & E). exists (CE (begin_ev k) :: cs ++ [CE (end_ev k)]). split.
  - pose proof (plays_node k ps [] cs [] P plays_nil) as X. rewrite app_nil_r in X. exact X.
  - apply flat_CE1, flat_app_ok; [exact E|reflexivity].
Qed.
Lemma text_ref_flat c : flat (text_buf_ref c) false =
  ([ETextBegin (Some (blen (c_data c))); text_frag (negb (c_owned c), c_data c); ETextEnd], true).
Proof. destruct c as [[|] d]; reflexivity. Qed.
Lemma bin_ref_flat c : flat (bin_buf_ref c) false =
  ([EBinBegin (Some (blen (c_data c))); bin_frag (negb (c_owned c), c_data c); EBinEnd], true).
Proof. destruct c as [[|] d]; reflexivity. Qed.
Lemma acts_text c : acts [PText c] [ETextBegin (Some (blen (c_data c))); text_frag (negb (c_owned c), c_data c); ETextEnd].
Proof.
  exists (text_buf_ref c ++ []). split; [repeat constructor|]. rewrite app_nil_r. apply text_ref_flat.
Qed.
Lemma acts_bin c : acts [PBin c] [EBinBegin (Some (blen (c_data c))); bin_frag (negb (c_owned c), c_data c); EBinEnd].
Proof.
  exists (bin_buf_ref c ++ []). split; [repeat constructor|]. rewrite app_nil_r. apply bin_ref_flat.
Qed.

Lemma frag_cow_snoc fs f : frag_cow (fs ++ [f]) =
  if fst f then frag_push (frag_cow fs) (snd f) else frag_push_computed (frag_cow fs) (snd f).
Proof. unfold frag_cow. rewrite fold_left_app. reflexivity. Qed.
Lemma content_snoc fs f : content (fs ++ [f]) = content fs ++ snd f.
Proof. unfold content. rewrite map_app, concat_app. cbn. rewrite app_nil_r. reflexivity. Qed.
Lemma empty_content fs : forallb is_empty fs = match content fs with [] => true | _ => false end.
Proof.
  induction fs as [|[b s] fs IH]; [reflexivity|]. cbn [forallb]. unfold content in *. cbn [map List.concat].
  rewrite IH. unfold is_empty. cbn [snd]. destruct s; reflexivity.
Qed.
Lemma frag_cow_spec fs : frag_cow fs = MkCow (negb (borrowed_whole fs)) (content fs).
Proof.
  induction fs as [|[b s] fs IH] using rev_ind; [reflexivity|].
  rewrite frag_cow_snoc, content_snoc, IH. unfold borrowed_whole. rewrite rev_app_distr. cbn [rev app fst snd].
  assert (E : forallb is_empty (rev fs) = forallb is_empty fs).
  { clear. induction fs as [|f fs IH]; [reflexivity|]. cbn [rev forallb]. rewrite forallb_app, IH. cbn.
    rewrite andb_true_r. apply andb_comm. }
  rewrite E, empty_content. destruct b; cbn [andb frag_push_computed c_data negb]; [|reflexivity].
  unfold frag_push. cbn [c_data]. destruct (content fs); reflexivity.
Qed.

Lemma flat_map_map {A B C} (g : A -> B) (f : B -> list C) l : flat_map f (map g l) = flat_map (fun x => f (g x)) l.
Proof. induction l as [|x l IH]; cbn; [reflexivity|rewrite IH; reflexivity]. Qed.

Lemma acts_tree t : acts (parts_of t) (emit (rebuilt kept_label t)).
Proof.
  induction t using tree_ind'; cbn [emit parts_of rebuilt];
    try (match goal with |- acts [PLeaf ?k] _ => exact (acts_leaf k) end).
  - rewrite frag_cow_spec. pose proof (acts_text (MkCow (negb (borrowed_whole fs)) (content fs))) as X.
    cbn [c_data c_owned] in X. rewrite negb_involutive in X. exact X.
  - rewrite frag_cow_spec. pose proof (acts_bin (MkCow (negb (borrowed_whole fs)) (content fs))) as X.
    cbn [c_data c_owned] in X. rewrite negb_involutive in X. exact X.
  - rewrite own_opt. exact (acts_leaf (VTag t (option_map kept_label l) i)).
  - apply (acts_app [PLeaf (VTagHint t)] [ETagHint t]); [exact (acts_leaf (VTagHint t))|exact IHt].
  - rewrite own_opt. exact (acts_node (NTagged t (option_map kept_label l) i) _ _ IHt).
  - rewrite own_opt. exact (acts_node (NEnum t (option_map kept_label l) i) _ _ IHt).
  - apply (acts_node (NSeq n)).
    rewrite flat_map_map. apply acts_flat_map.
    eapply Forall_impl; [|exact H]. intros v Hv. apply (acts_node NSeqValue), Hv.
  - apply (acts_node (NMap n)).
    rewrite flat_map_map. apply acts_flat_map.
    eapply Forall_impl; [|exact H]. intros [k v] [Hk Hv]. cbn [fst snd] in *.
    replace (EMapKeyBegin :: emit (rebuilt kept_label k) ++ EMapKeyEnd :: EMapValBegin :: emit (rebuilt kept_label v) ++ [EMapValEnd])
      with ((EMapKeyBegin :: emit (rebuilt kept_label k) ++ [EMapKeyEnd]) ++ (EMapValBegin :: emit (rebuilt kept_label v) ++ [EMapValEnd]))
      by (cbn; rewrite <- app_assoc; reflexivity).
    apply acts_app; [apply (acts_node NMapKey), Hk|apply (acts_node NMapValue), Hv].
  - rewrite own_opt. apply (acts_node (NRecord t (option_map kept_label l) i n)).
    rewrite flat_map_map. apply acts_flat_map.
    eapply Forall_impl; [|exact H]. intros [[ft fl] v] Hv. rewrite own_kept. apply (acts_node (NRecordValue ft (kept_label fl))), Hv.
  - rewrite own_opt. apply (acts_node (NTuple t (option_map kept_label l) i n)).
    rewrite flat_map_map. apply acts_flat_map.
    eapply Forall_impl; [|exact H]. intros [[ft fi] v] Hv. apply (acts_node (NTupleValue ft fi)), Hv.
  - rewrite own_opt. apply (acts_node (NRecTup t (option_map kept_label l) i n)).
    rewrite flat_map_map. apply acts_flat_map.
    eapply Forall_impl; [|exact H]. intros [[[ft fl] fi] v] Hv. rewrite own_kept. apply (acts_node (NRecTupValue ft (kept_label fl) fi)), Hv.
Qed.

Lemma parts_of_nonempty t : parts_of t <> [].
Proof. destruct t; discriminate. Qed.

Lemma stream_parts_plays ps cs : plays ps cs -> ps <> [] -> stream_parts ps = Some cs.
Proof. intros P N. unfold stream_parts. destruct ps; [congruence|]. apply plays_replay; [exact P|lia]. Qed.
