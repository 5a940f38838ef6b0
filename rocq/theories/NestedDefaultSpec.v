(** * NestedDefaultSpec: what a nested stream that keeps the defaults should see *)

From Verif Require Import Base Event Tree FragModel BufferSpec NestedModel NestedSpec.

(** The range of an [i64]; a narrower signed integer is in it by its type. *)
Definition in_i64 (z : Z) : bool := ((- 2 ^ 63 <=? z) && (z <? 2 ^ 63))%Z.
Definition is_i64 (t : ity) (z : Z) : bool :=
  match t with I8 | I16 | I32 | I64 => true | _ => in_i64 z end.

(** A child arrives through a [_computed] method. *)
Definition handed (a : arg) (r : rview) : Prop := fst a = false /\ child a r.

Section Basic.
Variable S : nstream.

(** The calls made on the stream of an enum. *)
Fixpoint basic_variant (r : rview) (g : n_enum S -> outcome (n_ok S)) : Prop :=
  match r with
  | RTag t l i => exists l', okept l' = l /\ forall e, g e = enum_tag S e t l' i
  | RTagged t l i v => exists l' a, okept l' = l /\ handed a v /\ forall e, g e = enum_tagged S e t l' i a
  | REnum t l i v => exists l' g', okept l' = l /\ basic_variant v g' /\ forall e, g e = enum_nested S e t l' i g'
  | RTuple t l i n fs =>
      exists l' args, okept l' = l /\
        Forall2 (fun x f => match x, f with (xt, xi, a), (ft, fi, v) => xt = ft /\ xi = fi /\ handed a v end) args fs /\
        forall e, g e = (s <- enum_tuple_begin S e t l' i n ;;
                         s' <- fold_o (fun s x => match x with (xt, xi, a) => vtuple_value S s xt xi a end) s args ;;
                         vtuple_end S s')
  | RRecord t l i n fs =>
      exists l' args, okept l' = l /\
        Forall2 (fun x f => match x, f with (xt, xl, a), (ft, fl, v) => xt = ft /\ kept_label xl = fl /\ handed a v end) args fs /\
        forall e, g e = (s <- enum_record_begin S e t l' i n ;;
                         s' <- fold_o (fun s x => match x with (xt, xl, a) => vrecord_value S s xt xl a end) s args ;;
                         vrecord_end S s')
  | _ => False
  end.

(** The outcome [o] of streaming a value with view [r] into [S] is that of calls
    to the required methods of [S]. *)
Fixpoint basic_answer (r : rview) (o : outcome (n_ok S)) : Prop :=
  match r with
  | RNull => o = n_null S
  | RBool b => o = n_bool S b
  (* every integer, exactly: an i64 if it is one, its decimal digits if not *)
  | RInt t z => o = if is_i64 t z then n_int S I64 z else n_text S false (dec z)
  | RF32 f => o = n_f64 S (f32_to_f64 f)
  | RF64 f => o = n_f64 S f
  | RText s => o = n_text S false s
  (* a sequence of as many numbers *)
  | RBin s =>
      o = (q <- n_seq_begin S (Some (N.of_nat (List.length s))) ;;
           q' <- fold_o (seq_value S) q (map (fun x => (false, [CE (EInt U8 (byte_val x))])) s) ;;
           seq_end S q')
  (* the text of the label; the absent option and a tag without a label are null *)
  | RTag t l i =>
      o = match l with
          | Some l => if otag_is t RUST_OPTION_NONE then n_null S else n_text S false (l_text l)
          | None => n_null S
          end
  (* the value in it; the tag is dropped *)
  | RTagged _ _ _ v => basic_answer v o
  | REnum t l i v =>
      exists l' g, okept l' = l /\ basic_variant v g /\ o = (e <- n_enum_begin S t l' i ;; g e)
  | RSeq n vs =>
      exists args, Forall2 handed args vs /\
        o = (s <- n_seq_begin S n ;; s' <- fold_o (seq_value S) s args ;; seq_end S s')
  | RMap n es =>
      exists args, Forall2 (fun x e => match x, e with (a, b), (k, v) => handed a k /\ handed b v end) args es /\
        o = (s <- n_map_begin S n ;;
             s' <- fold_o (fun s x => match x with (a, b) => s1 <- map_key S s a ;; map_value S s1 b end) s args ;;
             map_end S s')
  | RTuple t l i n fs =>
      exists l' args, okept l' = l /\
        Forall2 (fun x f => match x, f with (xt, xi, a), (ft, fi, v) => xt = ft /\ xi = fi /\ handed a v end) args fs /\
        o = (s <- n_tuple_begin S t l' i n ;;
             s' <- fold_o (fun s x => match x with (xt, xi, a) => tuple_value S s xt xi a end) s args ;;
             tuple_end S s')
  | RRecord t l i n fs =>
      exists l' args, okept l' = l /\
        Forall2 (fun x f => match x, f with (xt, xl, a), (ft, fl, v) => xt = ft /\ kept_label xl = fl /\ handed a v end) args fs /\
        o = (s <- n_record_begin S t l' i n ;;
             s' <- fold_o (fun s x => match x with (xt, xl, a) => record_value S s xt xl a end) s args ;;
             record_end S s')
  end.
End Basic.

(** The enums handled ([NestedSpec.handled1]), also inside dropped tags. *)
Fixpoint handled_through (r : rview) : bool :=
  handled1 r && match r with RTagged _ _ _ v => handled_through v | _ => true end.

(** ** The whole value

    What is left of a value: integers are [i64]s or decimal text, floats are
    [f64]s, bytes are sequences of numbers, tags are text or null and tagged
    values are bare.  Directly inside an enum, tags stay. *)
Fixpoint reduced (variant : bool) (r : rview) : rview :=
  match r with
  | RInt t z => if is_i64 t z then RInt I64 z else RText (dec z)
  | RF32 f => RF64 (f32_to_f64 f)
  | RBin s => RSeq (Some (N.of_nat (List.length s))) (map (fun x => RInt I64 (byte_val x)) s)
  | RTag t l i =>
      if variant then RTag t l i
      else match l with
           | Some l => if otag_is t RUST_OPTION_NONE then RNull else RText (l_text l)
           | None => RNull
           end
  | RTagged t l i v => if variant then RTagged t l i (reduced false v) else reduced false v
  | REnum t l i v => REnum t l i (reduced true v)
  | RSeq n vs => RSeq n (map (reduced false) vs)
  | RMap n es => RMap n (map (fun kv => match kv with (k, v) => (reduced false k, reduced false v) end) es)
  | RRecord t l i n fs => RRecord t l i n (map (fun f => match f with (ft, fl, v) => (ft, fl, reduced false v) end) fs)
  | RTuple t l i n fs => RTuple t l i n (map (fun f => match f with (ft, fi, v) => (ft, fi, reduced false v) end) fs)
  | r => r
  end.
