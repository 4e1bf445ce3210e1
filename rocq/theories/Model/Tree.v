(** Model of lolly/data/lolly_tree.hpp.  Trees are handles: the heap has tree nodes, strings
    and arrays, each known by its number.  The data field of the nodes, reference counts (see
    RefCount) and the capacity of arrays (see Array) are left out.  CHECK_COMPOUND is active
    in debug builds only and left out. *)
From Verif Require Import Base Spec.StringBuf Model.NumStr.
Local Open Scope Z_scope.

(** lolly_tree_rep (lolly_tree.hpp:140-161): op = 0 with the label, or op with the array.  The
    array member can be active with op = 0 when the constructor is called with label 0. *)
Inductive node := Label (s : nat) | Comp (op : Z) (a : nat).
Record heap := Heap { nodes : list node; strs : list str; arrs : list (list nat) }.
Definition deref {A} (l : list A) (i : nat) : res A := match nth_error l i with Some x => Ok x | None => UB end.
Definition op_of (n : node) : Z := match n with Label _ => 0 | Comp op _ => op end.
(** t->label and t->a: members of a union *)
Definition label_of (h : heap) (n : node) : res str := match n with Label s => deref (strs h) s | Comp _ _ => UB end.
Definition array_id (n : node) : res nat := match n with Comp _ a => Ok a | Label _ => UB end.
Definition array_of (h : heap) (n : node) : res (list nat) := let* a := array_id n in deref (arrs h) a.

(** ** Construction *)
Definition new_node (h : heap) (n : node) : heap * nat := (Heap (nodes h ++ [n]) (strs h) (arrs h), length (nodes h)).
(** lolly_tree (string) (line 31), of a string that is not shared *)
Definition new_atom (h : heap) (s : str) : heap * nat :=
  new_node (Heap (nodes h) (strs h ++ [s]) (arrs h)) (Label (length (strs h))).
(** array<lolly_tree<T>> (n): n trees made by the default constructor (line 30).  The trees in
    the rest of the capacity cannot be seen and are left out. *)
Fixpoint defaults (n : nat) (h : heap) : heap * list nat :=
  match n with
  | O => (h, [])
  | S n' => let '(h1, t) := new_atom h [] in let '(h2, ts) := defaults n' h1 in (h2, t :: ts)
  end.
Definition new_array (h : heap) (l : list nat) : heap * nat := (Heap (nodes h) (strs h) (arrs h ++ [l]), length (arrs h)).
(** lolly_tree (int l, int n) (lines 36-37), lolly_tree (t, n) (lines 42-45) *)
Definition new_tree (h : heap) (op : Z) (n : nat) : heap * nat :=
  let '(h1, ts) := defaults n h in let '(h2, a) := new_array h1 ts in new_node h2 (Comp op a).
(** t[i]= u with operator[] (lines 124-127) *)
Definition set_child (h : heap) (t : nat) (i : nat) (u : nat) : res heap :=
  let* n := deref (nodes h) t in
  let* a := array_id n in
  let* l := deref (arrs h) a in
  if Nat.ltb i (length l) then Ok (Heap (nodes h) (strs h) (put (arrs h) a (put l i u))) else UB.
(** t[i] *)
Definition child (h : heap) (t i : nat) : res nat := let* n := deref (nodes h) t in let* l := array_of h n in deref l i.
(** N (t) (lines 163-168), arity (lines 170-175) *)
Definition size (h : heap) (t : nat) : res nat := let* n := deref (nodes h) t in let* l := array_of h n in Ok (length l).
Definition arity (h : heap) (t : nat) : res nat :=
  let* n := deref (nodes h) t in if op_of n =? 0 then Ok O else size h t.
(** is_atomic, is_compound, is_generic (lines 191-207) *)
Definition is_atomic (h : heap) (t : nat) : res bool := let* n := deref (nodes h) t in Ok (op_of n =? 0).
(** strong_equal (lines 261-265) is equality of the numbers. *)
Definition is_compound (h : heap) (t : nat) : res bool := let* n := deref (nodes h) t in Ok (0 <? op_of n).

(** ** Comparison *)
(** The loops of == and != of arrays (array.ipp:98-116): both test the elements with !=. *)
Fixpoint ne_loop (ne : nat -> nat -> res bool) (a b : list nat) : res bool :=
  match a, b with
  | [], _ => Ok false
  | x :: a', y :: b' => let* d := ne x y in if d then Ok true else ne_loop ne a' b'
  | _ :: _, [] => UB
  end.
(** operator!= (lolly_tree.hpp:253-259) *)
Fixpoint tree_ne (fuel : nat) (h : heap) (t u : nat) : res bool :=
  match fuel with
  | O => Fuel
  | S f =>
    if Nat.eqb t u then Ok false                       (* strong_equal *)
    else
      let* a := deref (nodes h) t in
      let* b := deref (nodes h) u in
      if negb (op_of a =? op_of b) then Ok true
      else if op_of a =? 0 then let* x := label_of h a in let* y := label_of h b in Ok (negb (seqb x y))
      else let* x := array_of h a in let* y := array_of h b in
           if negb (Nat.eqb (length x) (length y)) then Ok true else ne_loop (tree_ne f h) x y
  end.
(** operator== (lines 245-251) *)
Definition tree_eq (fuel : nat) (h : heap) (t u : nat) : res bool :=
  if Nat.eqb t u then Ok true
  else
    let* a := deref (nodes h) t in
    let* b := deref (nodes h) u in
    if negb (op_of a =? op_of b) then Ok false
    else if op_of a =? 0 then let* x := label_of h a in let* y := label_of h b in Ok (seqb x y)
    else let* x := array_of h a in let* y := array_of h b in
         if negb (Nat.eqb (length x) (length y)) then Ok false
         else let* d := ne_loop (tree_ne fuel h) x y in Ok (negb d).
(** t == s for a string (lines 221-225) *)
Definition eq_string (h : heap) (t : nat) (s : str) : res bool :=
  let* n := deref (nodes h) t in
  if op_of n =? 0 then let* x := label_of h n in Ok (seqb x s) else Ok false.

(** ** copy (lines 387-398) *)
(** for (i= 0; i < n; i++) t2[i]= copy (t[i]); with the copies made by [cp] *)
Fixpoint copy_loop (cp : heap -> nat -> res (heap * nat)) (t2 : nat) (h : heap) (i : nat) (l : list nat) : res heap :=
  match l with
  | [] => Ok h
  | x :: l' => let* r := cp h x in let* h' := set_child (fst r) t2 i (snd r) in copy_loop cp t2 h' (S i) l'
  end.
Fixpoint copy (fuel : nat) (h : heap) (t : nat) : res (heap * nat) :=
  match fuel with
  | O => Fuel
  | S f =>
    let* n := deref (nodes h) t in
    if op_of n =? 0 then let* s := label_of h n in Ok (new_atom h s)
    else
      let* l := array_of h n in
      let '(h1, t2) := new_tree h (op_of n) (length l) in
      let* h2 := copy_loop (copy f) t2 h1 O l in
      Ok (h2, t2)
  end.

(** ** Printing: operator<< (lines 370-385), the text that is written *)
(** lines 379-381 *)
Fixpoint print_loop (pr : nat -> res str) (l : list nat) : res str :=
  match l with
  | [] => UB
  | [x] => let* s := pr x in Ok (s ++ lit ")")
  | x :: l' => let* s := pr x in let* r := print_loop pr l' in Ok (s ++ lit ", " ++ r)
  end.
Fixpoint print (fuel : nat) (h : heap) (t : nat) : res str :=
  match fuel with
  | O => Fuel
  | S f =>
    let* n := deref (nodes h) t in
    if op_of n =? 0 then label_of h n
    else if 0 <? op_of n then
      let* l := array_of h n in
      if Nat.eqb (length l) 0 then Ok (as_string_int (op_of n) ++ lit "()")
      else let* s := print_loop (print f h) l in Ok (as_string_int (op_of n) ++ lit " (" ++ s)
    else Ok []
  end.

(** ** Joining and slices *)
Fixpoint set_children (h : heap) (t i : nat) (l : list nat) : res heap :=
  match l with [] => Ok h | x :: l' => let* h' := set_child h t i x in set_children h' t (S i) l' end.
(** t1 * t2 (lines 340-352); lolly_tree (l, t) (lines 47-50) *)
Definition wrap (h : heap) (op : Z) (t : nat) : res (heap * nat) :=
  let '(h1, r) := new_tree h op 1 in let* h2 := set_child h1 r 0 t in Ok (h2, r).
Definition times (h : heap) (t1 t2 : nat) : res (heap * nat) :=
  let* a1 := is_atomic h t1 in
  let* r1 := if a1 then let* n := deref (nodes h) t2 in wrap h (op_of n) t1 else Ok (h, t1) in
  let '(h, t1) := r1 in
  let* a2 := is_atomic h t2 in
  let* r2 := if a2 then let* n := deref (nodes h) t1 in wrap h (op_of n) t2 else Ok (h, t2) in
  let '(h, t2) := r2 in
  let* n1 := deref (nodes h) t1 in
  let* l1 := array_of h n1 in
  let* n2 := deref (nodes h) t2 in
  let* l2 := array_of h n2 in
  let '(h, r) := new_tree h (op_of n1) (length l1 + length l2) in
  let* h := set_children h r 0 l1 in
  let* h := set_children h r (length l1) l2 in
  Ok (h, r).
(** t (start, end) (lines 129-134) *)
Definition slice_tree (h : heap) (t start stop : nat) : res (heap * nat) :=
  let* n := deref (nodes h) t in
  let* l := array_of h n in
  if Nat.leb start stop && Nat.leb stop (length l) then
    let '(h, r) := new_tree h (op_of n) (stop - start) in
    let* h := set_children h r 0 (firstn (stop - start) (skipn start l)) in
    Ok (h, r)
  else UB.
(** t << u (lines 354-360) *)
Definition append (h : heap) (t u : nat) : res heap :=
  let* n := deref (nodes h) t in
  let* a := array_id n in
  let* l := deref (arrs h) a in
  Ok (Heap (nodes h) (strs h) (put (arrs h) a (l ++ [u]))).
