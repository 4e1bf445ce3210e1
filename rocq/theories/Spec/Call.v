(** Command lines: what is assumed of wordexp. *)
From Verif Require Import Base Model.Unicode Model.Call Spec.Text Spec.Tree.
Local Open Scope Z_scope.

(** A text that a shell reads as the word [w] (see Spec/Text.v), which is not empty. *)
Definition spells (t w : str) : Prop := sh_word t = Some w /\ w <> [].
(** Words separated by blanks are these words, and blanks alone are none.  Behind text without special
    characters the characters that have a meaning in the grammar of shells are errors (WRDE_BADCHAR, 2). *)
Definition expands (wordexp : str -> expansion) : Prop :=
  (forall ts ws, ts <> [] -> Forall2 spells ts ws -> wordexp (join (lit " ") ts) = Words ws)
  /\ (forall n, wordexp (repeat " "%char n) = Words [])
  /\ (forall a c b, (forall x, In x a -> x = " "%char \/ (sh_special x = false /\ x <> "\"%char)) -> In c (lit "|&;<>(){}" ++ [chr 10]) ->
        wordexp (a ++ c :: b) = Failed 2 false).

(** An argument that escape_sh quotes so that shells read it back. *)
Definition harmless (s : str) : Prop := s <> [] /\ Forall (fun c => ~ In c (lit "|;'*[]#~=%{}!" ++ [chr 9; chr 10; chr 0])) s.
(** A wordexp that knows blanks, backslashes and errors only: an example that fits the assumptions. *)
Definition close (cur : str) (acc : list str) : list str := match cur with [] => acc | _ => acc ++ [cur] end.
Fixpoint split_words (s cur : str) (acc : list str) : expansion :=
  match s with
  | [] => Words (close cur acc)
  | c :: r =>
    if Ascii.eqb c "\" then
      match r with
      | [] => Failed 5 false
      | d :: r' => if Ascii.eqb d (chr 10) then split_words r' cur acc else split_words r' (cur ++ [d]) acc
      end
    else if Ascii.eqb c " " then split_words r [] (close cur acc)
    else if existsb (Ascii.eqb c) (lit "|&;<>(){}" ++ [chr 10]) then Failed 2 false
    else split_words r (cur ++ [c]) acc
  end.
Definition simple_wordexp (s : str) : expansion := split_words s [] [].
