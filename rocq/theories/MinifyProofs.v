(** * MinifyProofs: what a piece of a JSON text is without its white space *)

From Verif Require Import Base Event Tree LowerSpec JsonModel JsonGrammar JsonSpec JsonTextSpec JsonParse ReaderModel ReaderSpec ReaderProofs MinifySpec.

(** The text a value read from JSON should be written as. *)
Fixpoint again (t : tree) : bytes :=
  match t with
  | TNull => bs "null"
  | TBool b => if b then bs "true" else bs "false"
  | TText _ fs => json_string (frags_text fs)
  | TTagged _ _ _ (TTagged _ _ _ (TText _ fs)) => frags_text fs
  | TSeq _ vs => array (map again vs)
  | TMap _ es => object (map (fun kv => match kv with (k, v) => again k ++ bs ":" ++ again v end) es)
  | _ => []
  end.

Definition stripped (s x : bytes) : Prop := forall rest, minify_from LOut (s ++ rest) = x ++ minify_from LOut rest.
Lemma stripped_app a b x y : stripped a x -> stripped b y -> stripped (a ++ b) (x ++ y).
Proof. intros A B rest. rewrite <- !app_assoc, A, B. reflexivity. Qed.
Lemma stripped_minify s x : stripped s x -> minify s = x.
Proof. intros H. specialize (H []). rewrite !app_nil_r in H. exact H. Qed.
Lemma stripped_ws w : ws w -> stripped w [].
Proof.
  unfold ws. intros W rest. cbn [app]. induction w as [|b w IH]; [reflexivity|]. cbn [forallb app minify_from] in *. apply andb_true_iff in W as [B W].
  rewrite B. apply IH, W.
Qed.
Lemma stripped_plain s : forallb (fun b => negb (is_ws b) && negb (N_of_ascii b =? 34)%N) s = true -> stripped s s.
Proof.
  intros P rest. induction s as [|b s IH]; [reflexivity|]. cbn [forallb app minify_from] in *. apply andb_true_iff in P as [B P].
  apply andb_true_iff in B as [B1 B2]. apply negb_true_iff in B1, B2. rewrite B1, B2. f_equal. apply IH, P.
Qed.
Lemma num_stripped s : forallb num_byte s = true -> stripped s s.
Proof.
  intros H. apply stripped_plain. rewrite forallb_forall in *. intros b I. specialize (H b I). clear I.
  destruct b as [[] [] [] [] [] [] [] []]; first [discriminate H|reflexivity].
Qed.
Lemma string_stripped k : stripped (json_string k) (json_string k).
Proof.
  intros rest. unfold json_string. rewrite <- !app_assoc. cbn [app].
  assert (Q : minify_from LOut (ascii_of_N 34 :: flat_map json_char k ++ ascii_of_N 34 :: rest) =
              ascii_of_N 34 :: minify_from LStr (flat_map json_char k ++ ascii_of_N 34 :: rest)) by reflexivity.
  rewrite Q. f_equal. clear Q. induction k as [|b k IH]; [reflexivity|]. cbn [flat_map]. rewrite <- !app_assoc.
  assert (C : forall z, minify_from LStr (json_char b ++ z) = json_char b ++ minify_from LStr z).
  { intros z. destruct b as [[] [] [] [] [] [] [] []]; reflexivity. }
  rewrite C, IH. reflexivity.
Qed.
Lemma again_text t k : a_text t k -> again t = json_string k.
Proof. intros (fs & -> & <-). reflexivity. Qed.

(** The bytes of a string body that stand for themselves, and the escapes that are
    how the characters are written. *)
Lemma plain_char b : (N_of_ascii b =? 34)%N = false -> (N_of_ascii b =? 92)%N = false -> (N_of_ascii b <? 32)%N = false -> json_char b = [b].
Proof. intros A B C. destruct b as [[] [] [] [] [] [] [] []]; first [discriminate A|discriminate B|discriminate C|reflexivity]. Qed.
