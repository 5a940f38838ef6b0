(** * SerdeErrSpec: which error a failing serializer should be seen to give

    The [serde] side only, with errors. *)

From Verif Require Import Base Event Tree DataModel FragModel BufferSpec StdModel NestedModel NestedSpec SerdeModel SerdeSpec SerdeErrModel.

(** A serializer can only serialize a child, as in SerdeSpec.v. *)
Definition same_echild {S} (c d : e_ser S -> result (e_err S) (e_ok S)) : Prop := forall k, c k = d k.
Record opaque_echildren (S : eserializer) : Prop := {
  eoc_some : forall k c d, same_echild c d -> es_some S k c = es_some S k d;
  eoc_newtype_struct : forall k n c d, same_echild c d -> es_newtype_struct S k n c = es_newtype_struct S k n d;
  eoc_newtype_variant : forall k n i v c d, same_echild c d -> es_newtype_variant S k n i v c = es_newtype_variant S k n i v d;
  eoc_seq : forall s c d, same_echild c d -> e_seq_element S s c = e_seq_element S s d;
  eoc_tuple : forall s c d, same_echild c d -> e_tuple_element S s c = e_tuple_element S s d;
  eoc_tstruct : forall s c d, same_echild c d -> e_tstruct_field S s c = e_tstruct_field S s d;
  eoc_tvariant : forall s c d, same_echild c d -> e_tvariant_field S s c = e_tvariant_field S s d;
  eoc_map_key : forall s c d, same_echild c d -> e_map_key S s c = e_map_key S s d;
  eoc_map_value : forall s c d, same_echild c d -> e_map_value S s c = e_map_value S s d;
  eoc_struct : forall s f c d, same_echild c d -> e_struct_field S s f c = e_struct_field S s f d;
  eoc_svariant : forall s f c d, same_echild c d -> e_svariant_field S s f c = e_svariant_field S s f d
}.

(** The loop over the children, ended by the first error. *)
Section EEach.
  Context {E St A : Type} (f : St -> A -> result E St).
  Fixpoint eeach (s : St) (l : list A) : result E St :=
    match l with [] => ROk s | x :: l' => s' <~ f s x ;; eeach s' l' end.
End EEach.

(** Begin, children, end.  An error of the begin call goes through [mask] when
    anything should have followed ([more]), and so does an error of a child; an
    error of the end call is given as it is. *)
Definition masked {E A} (mask : E -> E) (r : result E A) : result E A :=
  match r with RErr e => RErr (mask e) | r => r end.
Definition compound_of {E K X B} (mask : E -> E) (more : bool) (beg : result E K)
    (step : K -> X -> result E K) (xs : list X) (fin : K -> result E B) : result E B :=
  s <~ (if more then masked mask beg else beg) ;; s <~ masked mask (eeach step s xs) ;; fin s.
Definition any {X} (l : list X) : bool := match l with [] => false | _ => true end.

(** Serializing [x] directly, [x.serialize(k)], when [mask] is the identity: the
    first error of the serializer is the result.  With [mask] the function that
    always gives [custom], errors in the middle of a container are replaced.  A
    value that gives up by itself gives [custom]. *)
Fixpoint eser (S : eserializer) (mask : e_err S -> e_err S) (x : sdata) (k : e_ser S) : result (e_err S) (e_ok S) :=
  match x with
  | DBool b => es_bool S k b
  | DInt t z => es_int S k t z
  | DF32 f => es_f32 S k f
  | DF64 f => es_f64 S k f
  | DChar c => es_char S k c
  | DStr s => es_str S k s
  | DBytes s => es_bytes S k s
  | DDisplay fs => es_collect_str S k fs
  | DNone => es_none S k
  | DSome v => es_some S k (eser S mask v)
  | DUnit => es_unit S k
  | DUnitStruct name => es_unit_struct S k name
  | DUnitVariant name i variant => es_unit_variant S k name i variant
  | DNewtypeStruct name v => es_newtype_struct S k name (eser S mask v)
  | DNewtypeVariant name i variant v => es_newtype_variant S k name i variant (eser S mask v)
  | DSeq n vs => compound_of mask (any vs) (es_seq S k n) (fun s v => e_seq_element S s (eser S mask v)) vs (e_seq_end S)
  | DTuple n vs => compound_of mask (any vs) (es_tuple S k n) (fun s v => e_tuple_element S s (eser S mask v)) vs (e_tuple_end S)
  | DTupleStruct name n vs =>
      compound_of mask (any vs) (es_tuple_struct S k name n) (fun s v => e_tstruct_field S s (eser S mask v)) vs (e_tstruct_end S)
  | DTupleVariant name i variant n vs =>
      compound_of mask (any vs) (es_tuple_variant S k name i variant n) (fun s v => e_tvariant_field S s (eser S mask v)) vs (e_tvariant_end S)
  | DMap n es =>
      compound_of mask (any es) (es_map S k n)
        (fun s e => match e with (a, b) => s <~ e_map_key S s (eser S mask a) ;; e_map_value S s (eser S mask b) end) es (e_map_end S)
  | DStruct name n fs ok =>
      compound_of mask (any fs || negb ok) (es_struct S k name n)
        (fun s f => match f with (l, v) => e_struct_field S s l (eser S mask v) end) fs
        (fun s => if ok then e_struct_end S s else RErr (e_custom S))
  | DStructVariant name i variant n fs ok =>
      compound_of mask (any fs || negb ok) (es_struct_variant S k name i variant n)
        (fun s f => match f with (l, v) => e_svariant_field S s l (eser S mask v) end) fs
        (fun s => if ok then e_svariant_end S s else RErr (e_custom S))
  | DFail => RErr (e_custom S)
  end.

(** Serializing directly, and what [ToSerialize] does instead. *)
Definition direct_ser (S : eserializer) : sdata -> e_ser S -> result (e_err S) (e_ok S) := eser S (fun e => e).
Definition custom_ser (S : eserializer) : sdata -> e_ser S -> result (e_err S) (e_ok S) := eser S (fun _ => e_custom S).

(** Only options and newtypes around values without parts: no container in it
    has children. *)
Fixpoint partless (x : sdata) : bool :=
  match x with
  | DSome v | DNewtypeStruct _ v | DNewtypeVariant _ _ _ v => partless v
  | DSeq _ vs | DTuple _ vs | DTupleStruct _ _ vs | DTupleVariant _ _ _ _ vs => negb (any vs)
  | DMap _ es => negb (any es)
  | DStruct _ _ fs ok | DStructVariant _ _ _ _ fs ok => negb (any fs || negb ok)
  | _ => true
  end.

(** ** Forgetting errors *)
Definition erase {E A} (r : result E A) : outcome A := match r with ROk a => OOk a | RErr _ => OErr | RPanic => OPanic end.
(** A serializer that does not look at the errors of its children: children that
    agree up to the error give results that agree up to the error. *)
Definition alike {S} (c d : e_ser S -> result (e_err S) (e_ok S)) : Prop := forall k, erase (c k) = erase (d k).
Record error_blind (S : eserializer) : Prop := {
  eb_some : forall k c d, alike c d -> erase (es_some S k c) = erase (es_some S k d);
  eb_newtype_struct : forall k n c d, alike c d -> erase (es_newtype_struct S k n c) = erase (es_newtype_struct S k n d);
  eb_newtype_variant : forall k n i v c d, alike c d -> erase (es_newtype_variant S k n i v c) = erase (es_newtype_variant S k n i v d);
  eb_seq : forall s c d, alike c d -> erase (e_seq_element S s c) = erase (e_seq_element S s d);
  eb_tuple : forall s c d, alike c d -> erase (e_tuple_element S s c) = erase (e_tuple_element S s d);
  eb_tstruct : forall s c d, alike c d -> erase (e_tstruct_field S s c) = erase (e_tstruct_field S s d);
  eb_tvariant : forall s c d, alike c d -> erase (e_tvariant_field S s c) = erase (e_tvariant_field S s d);
  eb_map_key : forall s c d, alike c d -> erase (e_map_key S s c) = erase (e_map_key S s d);
  eb_map_value : forall s c d, alike c d -> erase (e_map_value S s c) = erase (e_map_value S s d);
  eb_struct : forall s f c d, alike c d -> erase (e_struct_field S s f c) = erase (e_struct_field S s f d);
  eb_svariant : forall s f c d, alike c d -> erase (e_svariant_field S s f c) = erase (e_svariant_field S s f d)
}.

(** ** Containers with children *)
Definition with_parts (x : sdata) : bool :=
  match x with
  | DSeq _ vs | DTuple _ vs | DTupleStruct _ _ vs | DTupleVariant _ _ _ _ vs => any vs
  | DMap _ es => any es
  | DStruct _ _ fs _ | DStructVariant _ _ _ _ fs _ => any fs
  | _ => false
  end.
(** [e] is what the last call for the container, its [end], gave. *)
Definition from_end (S : eserializer) (x : sdata) (e : e_err S) : Prop :=
  match x with
  | DSeq _ _ => exists s, e_seq_end S s = RErr e
  | DTuple _ _ => exists s, e_tuple_end S s = RErr e
  | DTupleStruct _ _ _ => exists s, e_tstruct_end S s = RErr e
  | DTupleVariant _ _ _ _ _ => exists s, e_tvariant_end S s = RErr e
  | DMap _ _ => exists s, e_map_end S s = RErr e
  | DStruct _ _ _ _ => exists s, e_struct_end S s = RErr e
  | DStructVariant _ _ _ _ _ _ => exists s, e_svariant_end S s = RErr e
  | _ => False
  end.
