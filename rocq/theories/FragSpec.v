(** * FragSpec: what fragment buffers should hold *)

From Verif Require Import Base Tree FragModel LowerSpec.

(** The bytes one operation adds. *)
Definition fop_bytes (o : fop) : bytes :=
  match o with
  | FPush s | FPushComputed s => s
  | FPushDisplay ps _ => List.concat ps
  | FClear | FIntoOwned => []
  end.
(** The operations since the last clear that do something (displaying a value that
    writes nothing does not). *)
Definition since_clear (os : list fop) : list fop :=
  fold_left (fun acc o => match o with
                          | FClear => []
                          | FPushDisplay [] _ => acc
                          | o => acc ++ [o]
                          end) os [].
Definition history_bytes (os : list fop) : bytes := List.concat (map fop_bytes (since_clear os)).

(** What [TextBuf::collect] gives for a value: its text, if it simplifies to one. *)
Definition collected_text (t : tree) : option bytes :=
  match simplify t with KText _ fs => Some (List.concat fs) | _ => None end.

(** What [BinaryBuf::collect] gives: bytes, [u8]s, and sequences and tuples of such, end to end. *)
Fixpoint collected_bytes (t : tree) : option bytes :=
  let fix all (vs : list tree) : option bytes :=
      match vs with
      | [] => Some []
      | v :: vs' => match collected_bytes v, all vs' with
                    | Some a, Some b => Some (a ++ b)
                    | _, _ => None
                    end
      end in
  match t with
  | TBin _ fs => Some (List.concat (map snd fs))
  | TInt U8 z => Some [byte_of_Z z]
  | TSeq _ vs => all vs
  | TTuple _ _ _ _ fs =>
      (fix allf (fs : list (option tag * index * tree)) : option bytes :=
         match fs with
         | [] => Some []
         | (_, _, v) :: fs' => match collected_bytes v, allf fs' with
                               | Some a, Some b => Some (a ++ b)
                               | _, _ => None
                               end
         end) fs
  | THint _ v | TTagged _ _ _ v | TEnum _ _ _ v => collected_bytes v
  | _ => None
  end.
