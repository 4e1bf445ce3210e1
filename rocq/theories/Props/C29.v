(** C29  Cursor readers stay in bounds and read what is at the cursor.  A string with a cursor
    in it is p ++ r with the cursor at slen p. *)
From Verif Require Import Base Model.Int Model.Reader Spec.Search Spec.Numeral Spec.Reader Proofs.ReaderProofs.
Local Open Scope Z_scope.

(** read: succeeds iff the word is at the cursor, and then moves behind it. *)
Theorem C29_read_word_at_cursor : forall p r t : str,
  (exists q, r = t ++ q /\ read (p ++ r) (slen p) t = Ok (true, slen p + slen t))
  \/ ((forall q, r <> t ++ q) /\ read (p ++ r) (slen p) t = Ok (false, slen p)).
Proof. exact read_spec. Qed.
Print Assumptions C29_read_word_at_cursor.

(** Without a cursor it tells whether the string begins with the word. *)
Theorem C29_begins_with : forall s t : str, exists b, read0 s t = Ok b /\ (b = true <-> exists q, s = t ++ q).
Proof. exact read0_spec. Qed.
Print Assumptions C29_begins_with.

(** read_line and skip_line: up to the line feed, which is consumed; false at the end. *)
Theorem C29_lines : forall p r : str,
  (exists l q, r = l ++ chr 10 :: q /\ ~ In (chr 10) l
     /\ read_line (p ++ r) (slen p) = Ok (true, slen p + slen l + 1, l)
     /\ skip_line (p ++ r) (slen p) = Ok (slen p + slen l + 1))
  \/ (~ In (chr 10) r /\ read_line (p ++ r) (slen p) = Ok (false, slen (p ++ r), r)
      /\ skip_line (p ++ r) (slen p) = Ok (slen (p ++ r))).
Proof. exact read_line_spec. Qed.
Print Assumptions C29_lines.

(** read_int: the longest integer at the cursor; a number that does not fit overflows. *)
Theorem C29_read_int : forall p r : str,
  (exists l q v, r = l ++ q /\ minus_literal l /\ (forall c t, q = c :: t -> ~ digit c)
     /\ int_literal_value l = Some v
     /\ read_int (p ++ r) (slen p)
        = if Z.abs v <=? int_max then Ok (true, slen p + slen l, v) else UB)
  \/ ((forall l q, r = l ++ q -> ~ minus_literal l) /\ read_int (p ++ r) (slen p) = Ok (false, slen p, 0)).
Proof. exact read_int_spec. Qed.
Print Assumptions C29_read_int.

(** read_double: the greedy decimal number at the cursor, there is at most one. *)
Theorem C29_read_double : forall p r : str,
  (forall l q, number r l q -> read_double (p ++ r) (slen p) = Ok (true, slen p + slen l, l))
  /\ ((forall l q, ~ number r l q) -> read_double (p ++ r) (slen p) = Ok (false, slen p, [])).
Proof. exact read_double_spec. Qed.
Print Assumptions C29_read_double.
Theorem C29_read_double_total : forall p r : str,
  (exists l q, number r l q /\ read_double (p ++ r) (slen p) = Ok (true, slen p + slen l, l))
  \/ ((forall l q, ~ number r l q) /\ read_double (p ++ r) (slen p) = Ok (false, slen p, [])).
Proof. exact read_double_dec. Qed.
Print Assumptions C29_read_double_total.

Theorem C29_read_word : forall p r : str, exists l q, longest letter r l q
  /\ read_word (p ++ r) (slen p) = Ok (match l with [] => false | _ => true end, slen p + slen l, l).
Proof. exact read_word_spec. Qed.
Print Assumptions C29_read_word.

Theorem C29_skip_spaces : forall p r : str,
  (exists l q, longest (fun c => c = " "%char \/ c = chr 9) r l q
     /\ skip_spaces (p ++ r) (slen p) = Ok (slen p + slen l))
  /\ (exists l q, longest (fun c => In c [" "%char; chr 9; chr 10]) r l q
     /\ skip_whitespace (p ++ r) (slen p) = Ok (slen p + slen l)).
Proof. exact skip_spaces_spec. Qed.
Print Assumptions C29_skip_spaces.
Theorem C29_is_whitespace : forall s : str,
  is_whitespace s = true <-> Forall (fun c => In c [" "%char; chr 9; chr 10]) s.
Proof. exact is_whitespace_spec. Qed.
Print Assumptions C29_is_whitespace.

(** skip_symbol: one character, or a whole <...>; an unclosed one extends to the end. *)
Theorem C29_skip_symbol : forall p r : str,
  match r with
  | [] => skip_symbol (p ++ r) (slen p) = Ok (slen p)
  | c :: r' =>
      (c <> "<"%char /\ skip_symbol (p ++ r) (slen p) = Ok (slen p + 1))
      \/ (c = "<"%char /\
          ((exists l q, r' = l ++ ">"%char :: q /\ ~ In ">"%char l
              /\ skip_symbol (p ++ r) (slen p) = Ok (slen p + slen l + 2))
           \/ (~ In ">"%char r' /\ skip_symbol (p ++ r) (slen p) = Ok (slen (p ++ r)))))
  end.
Proof. exact skip_symbol_spec. Qed.
Print Assumptions C29_skip_symbol.

Example C29_example : read (lit "x+alpha") 2 (lit "alpha") = Ok (true, 7)
  /\ read (lit "x+alp") 2 (lit "alpha") = Ok (false, 2)
  /\ read_int (lit "a-120b") 1 = Ok (true, 5, -120) /\ read_int (lit "a-b") 1 = Ok (false, 1, 0)
  /\ read_double (lit "x=-1.5e-3;") 2 = Ok (true, 9, lit "-1.5e-3")
  /\ read_double (lit "1.5e") 0 = Ok (false, 0, [])
  /\ read_word (lit "x y") 0 = Ok (true, 1, lit "x")
  /\ skip_whitespace (lit "a  b") 1 = Ok 3 /\ skip_symbol (lit "<alpha>b") 0 = Ok 7
  /\ read_line (lit "a" ++ chr 10 :: lit "b") 0 = Ok (true, 2, lit "a").
Proof. vm_compute. repeat split. Qed.
Example C29_number_example : number (lit "-1.5e-3;") (lit "-1.5e-3") (lit ";").
Proof.
  assert (D : forall c, In c (lit "0123456789") -> digit c).
  { intros c H. cbn in H. repeat (destruct H as [<-|H]; [discriminate|]). destruct H. }
  apply (number_minus (lit "1.5e-3;") (lit "1.5e-3") (lit ";")).
  apply (number_intro (lit "1.5e-3;") (lit "1") (lit ".5e-3;") (lit ".5") (lit "e-3;") (lit "e-3")).
  - split; [reflexivity|]. split; [repeat constructor; apply D; cbn; auto|]. intros c t E. injection E as <- _. intros H. now apply H.
  - apply (point_some (lit "5") (lit "5e-3;")). split; [reflexivity|].
    split; [repeat constructor; apply D; cbn; auto 20|]. intros c t E. injection E as <- _. intros H. now apply H.
  - left. discriminate.
  - apply (exp_some "e"%char (lit "-") (lit "3") (lit "3;")); auto; [discriminate|]. split; [reflexivity|].
    split; [repeat constructor; apply D; cbn; auto 20|]. intros c t E. injection E as <- _. intros H. now apply H.
Qed.
