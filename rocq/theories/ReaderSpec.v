(** * ReaderSpec: what reading JSON should do

    JSON itself is JsonGrammar.v.  Nothing here mentions the reader's code. *)

From Verif Require Import Base Event Tree JsonModel JsonGrammar StackModel StackProps.

(** ** The value a JSON text stands for

    Numbers arrive as their text under the tags [JSON_NUMBER] and [NUMBER],
    strings as text in any number of fragments, arrays as sequences and objects
    as maps with text keys. *)
Definition a_text (t : tree) (s : bytes) : Prop :=
  exists fs, t = TText None fs /\ List.concat (map snd fs) = s.
Inductive stands_for : tree -> jv -> Prop :=
| sf_null : stands_for TNull JNull
| sf_bool b : stands_for (TBool b) (JBool b)
| sf_num s m e : json_number s m e ->
    stands_for (TTagged (Some JSON_NUMBER) None None (TTagged (Some NUMBER) None None (TText (Some (blen s)) [(true, s)]))) (JNum m e)
| sf_str t s : a_text t s -> stands_for t (JStr s)
| sf_arr ts vs : Forall2 stands_for ts vs -> stands_for (TSeq None ts) (JArr vs)
| sf_obj es ms : Forall2 (fun e m => a_text (fst e) (fst m) /\ stands_for (snd e) (snd m)) es ms ->
    stands_for (TMap None es) (JObj ms).

(** ** Texts the reader supports

    Outside of strings the byte [E] does not occur; in strings a backslash is
    followed by [n], [r], a quote or a backslash; containers nest so that the
    counters of C41 stay in range (63 levels always do). *)
Inductive lexer := LOut | LStr | LEsc.
Definition lex_byte (l : lexer) (b : byte) : option lexer :=
  let n := N_of_ascii b in
  match l with
  | LOut => if (n =? 69)%N then None else if (n =? 34)%N then Some LStr else Some LOut
  | LStr => if (n =? 34)%N then Some LOut else if (n =? 92)%N then Some LEsc else Some LStr
  | LEsc => if (n =? 110)%N || (n =? 114)%N || (n =? 34)%N || (n =? 92)%N then Some LStr else None
  end.
Definition nest_byte (l : lexer) (ks : list ckind) (b : byte) : option (list ckind) :=
  let n := N_of_ascii b in
  match l with
  | LOut => if (n =? 123)%N then real_op ks PushMap else if (n =? 125)%N then real_op ks PopMap
            else if (n =? 91)%N then real_op ks PushSeq else if (n =? 93)%N then real_op ks PopSeq else Some ks
  | _ => Some ks
  end.
Fixpoint supported_from (l : lexer) (ks : list ckind) (s : bytes) : bool :=
  small ks &&
  match s with
  | [] => true
  | b :: s' =>
      match lex_byte l b, nest_byte l ks b with
      | Some l', Some ks' => supported_from l' ks' s'
      | _, _ => false
      end
  end.
Definition supported (s : bytes) : bool := supported_from LOut [] s.

(** ** Brackets

    The brackets outside of strings nest; an unfinished string may end the text. *)
Definition str_byte (l : lexer) (b : byte) : lexer :=
  let n := N_of_ascii b in
  match l with
  | LOut => if (n =? 34)%N then LStr else LOut
  | LStr => if (n =? 34)%N then LOut else if (n =? 92)%N then LEsc else LStr
  | LEsc => LStr
  end.
Fixpoint nests_from (l : lexer) (ks : list ckind) (s : bytes) : option (list ckind) :=
  match s with
  | [] => Some ks
  | b :: s' => match nest_byte l ks b with Some ks' => nests_from (str_byte l b) ks' s' | None => None end
  end.
Definition brackets_nest (s : bytes) : Prop := nests_from LOut [] s = Some [].
