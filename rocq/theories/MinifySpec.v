(** * MinifySpec: a JSON text without the white space it does not need

    White space outside of strings, that is; strings stay as they are. *)

From Verif Require Import Base JsonGrammar ReaderSpec.

Fixpoint minify_from (l : lexer) (s : bytes) : bytes :=
  match s with
  | [] => []
  | b :: s' =>
      let n := N_of_ascii b in
      match l with
      | LOut => if is_ws b then minify_from LOut s' else b :: minify_from (if (n =? 34)%N then LStr else LOut) s'
      | LStr => b :: minify_from (if (n =? 34)%N then LOut else if (n =? 92)%N then LEsc else LStr) s'
      | LEsc => b :: minify_from LStr s'
      end
  end.
Definition minify (s : bytes) : bytes := minify_from LOut s.

Example minify_case : minify (bs " { ""a \"" b"" : [ 1 , 2 ] } ") = bs "{""a \"" b"":[1,2]}".
Proof. reflexivity. Qed.
