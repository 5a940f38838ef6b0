(** * SerdeFailSpec: what a serializer gets of a value that gives up

    Nothing here mentions the code of [sval_serde]. *)

From Verif Require Import Base Event Tree LowerModel DataModel FragModel StdModel SerdeModel SerdeSpec.

(** The indexes of variants are [u32]s, as the signatures of [serde] ask. *)
Fixpoint small_indexes (x : sdata) : bool :=
  match x with
  | DSome v | DNewtypeStruct _ v => small_indexes v
  | DUnitVariant _ i _ => fits U32 i
  | DNewtypeVariant _ i _ v => fits U32 i && small_indexes v
  | DSeq _ vs | DTuple _ vs | DTupleStruct _ _ vs => forallb small_indexes vs
  | DTupleVariant _ i _ _ vs => fits U32 i && forallb small_indexes vs
  | DMap _ es => forallb (fun e => match e with (a, b) => small_indexes a && small_indexes b end) es
  | DStruct _ _ fs _ => forallb (fun f => match f with (_, v) => small_indexes v end) fs
  | DStructVariant _ i _ _ fs _ => fits U32 i && forallb (fun f => match f with (_, v) => small_indexes v end) fs
  | _ => true
  end.
(** The value, or one inside it, gives up. *)
Fixpoint gives_up (x : sdata) : bool :=
  match x with
  | DSome v | DNewtypeStruct _ v | DNewtypeVariant _ _ _ v => gives_up v
  | DSeq _ vs | DTuple _ vs | DTupleStruct _ _ vs | DTupleVariant _ _ _ _ vs => existsb gives_up vs
  | DMap _ es => existsb (fun e => match e with (a, b) => gives_up a || gives_up b end) es
  | DStruct _ _ fs ok => existsb (fun f => match f with (_, v) => gives_up v end) fs || negb ok
  | DStructVariant _ _ _ _ fs ok => existsb (fun f => match f with (_, v) => gives_up v end) fs || negb ok
  | DFail => true
  | _ => false
  end.

(** What arrives: strings for [char]s and [Display]s, as in [strings], and a
    [Some] whose value gives up is given up as a whole, before the serializer
    hears of it.  A [Some] directly inside a [Some] is spared that. *)
Fixpoint given (x : sdata) : sdata :=
  match x with
  | DChar c => DStr (encode_utf8 c)
  | DDisplay fs => DStr (List.concat fs)
  | DSome (DSome v) => DSome (DSome (given v))
  | DSome v => if gives_up v then DFail else DSome (given v)
  | DNewtypeStruct n v => DNewtypeStruct n (given v)
  | DNewtypeVariant n i l v => DNewtypeVariant n i l (given v)
  | DSeq n vs => DSeq n (map given vs)
  | DTuple n vs => DTuple n (map given vs)
  | DTupleStruct l n vs => DTupleStruct l n (map given vs)
  | DTupleVariant l i v n vs => DTupleVariant l i v n (map given vs)
  | DMap n es => DMap n (map (fun e => match e with (a, b) => (given a, given b) end) es)
  | DStruct l n fs ok => DStruct l n (map (fun f => match f with (a, b) => (a, given b) end) fs) ok
  | DStructVariant l i v n fs ok => DStructVariant l i v n (map (fun f => match f with (a, b) => (a, given b) end) fs) ok
  | x => x
  end.

(** A serializer that does not take a child whose serialization fails. *)
Definition fails {S} (c : k_ser S -> outcome (k_ok S)) : Prop := forall k y, c k <> OOk y.
Record minds_errors (S : serializer) : Prop := {
  me_some : forall k c y, fails c -> s_some S k c <> OOk y;
  me_newtype_struct : forall k n c y, fails c -> s_newtype_struct S k n c <> OOk y;
  me_newtype_variant : forall k n i v c y, fails c -> s_newtype_variant S k n i v c <> OOk y;
  me_seq : forall s c y, fails c -> k_seq_element S s c <> OOk y;
  me_tuple : forall s c y, fails c -> k_tuple_element S s c <> OOk y;
  me_tstruct : forall s c y, fails c -> k_tstruct_field S s c <> OOk y;
  me_tvariant : forall s c y, fails c -> k_tvariant_field S s c <> OOk y;
  me_map_key : forall s c y, fails c -> k_map_key S s c <> OOk y;
  me_map_value : forall s c y, fails c -> k_map_value S s c <> OOk y;
  me_struct : forall s f c y, fails c -> k_struct_field S s f c <> OOk y;
  me_svariant : forall s f c y, fails c -> k_svariant_field S s f c <> OOk y
}.

(** Whether the value in some [Some] gives up. *)
Fixpoint some_gives_up (x : sdata) : bool :=
  match x with
  | DSome v => gives_up v || some_gives_up v
  | DNewtypeStruct _ v | DNewtypeVariant _ _ _ v => some_gives_up v
  | DSeq _ vs | DTuple _ vs | DTupleStruct _ _ vs | DTupleVariant _ _ _ _ vs => existsb some_gives_up vs
  | DMap _ es => existsb (fun e => match e with (a, b) => some_gives_up a || some_gives_up b end) es
  | DStruct _ _ fs _ | DStructVariant _ _ _ _ fs _ => existsb (fun f => match f with (_, v) => some_gives_up v end) fs
  | _ => false
  end.
