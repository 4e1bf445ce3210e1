(** Linked lists: /repo/Kernel/Containers/list.hpp and list.ipp.
    The heap holds the cells; a list is a pointer to its first cell, or NULL (None).  Cells are
    allocated at the end of the heap and never freed here: what reference counting frees is
    the subject of Model/RefCount.  Recursions and loops over cells take fuel, since cells may form
    cycles.  A function that only reads returns its value; one that allocates or writes returns
    the new heap too.  "list<T>& l" is the variable of the caller, whose new value is returned. *)
From Verif Require Import Base Model.Int.
Local Open Scope Z_scope.

Section L.
Context {T : Type}.
Variable teq tne : T -> T -> bool.      (* == and != on items *)
Definition ptr := option nat.
(** list.hpp:113-133 *)
Definition cell := (T * ptr)%type.
Definition heap := list cell.
(** l->item, l->next *)
Definition deref (h : heap) (a : nat) : res cell := match nth_error h a with Some c => Ok c | None => UB end.
Definition setcell (h : heap) (a : nat) (c : cell) : res heap :=
  if Nat.ltb a (length h) then Ok (firstn a h ++ c :: skipn (S a) h) else UB.
Definition is_nil (p : ptr) : bool := match p with None => true | Some _ => false end.
(** list.hpp:139-140 *)
Definition mk (h : heap) (x : T) (p : ptr) : heap * ptr := (h ++ [(x, p)], Some (length h)).
(** list.hpp:137-138, 141-144 *)
Definition mk1 (h : heap) (x : T) : heap * ptr := mk h x None.
Definition mk2 (h : heap) (x y : T) (p : ptr) : heap * ptr := let (h1, p1) := mk h y p in mk h1 x p1.
Definition mk3 (h : heap) (x y z : T) (p : ptr) : heap * ptr := let (h1, p1) := mk2 h y z p in mk h1 x p1.
(** list.hpp:145-148 *)
Definition is_atom (h : heap) (p : ptr) : res bool :=
  match p with None => Ok false | Some a => let* c := deref h a in Ok (is_nil (snd c)) end.

(** list.ipp:35-41: the cell whose item is referred to. *)
Fixpoint item_cell (fuel : nat) (h : heap) (p : ptr) (i : Z) : res nat :=
  match fuel with
  | O => Fuel
  | S f => match p with
           | None => Throw
           | Some a => let* c := deref h a in
                       if i =? 0 then Ok a else let* i' := chk32 (i - 1) in item_cell f h (snd c) i'
           end
  end.
Definition item_at (fuel : nat) (h : heap) (p : ptr) (i : Z) : res T :=
  let* a := item_cell fuel h p i in let* c := deref h a in Ok (fst c).
(** A write through a reference to the item of a cell. *)
Definition set_item (h : heap) (a : nat) (x : T) : res heap := let* c := deref h a in setcell h a (x, snd c).

(** list.ipp:47-61: the recursion of both operators << on a list that is not nil. *)
Fixpoint append_cell (fuel : nat) (h : heap) (a : nat) (q : ptr) : res heap :=
  match fuel with
  | O => Fuel
  | S f => let* c := deref h a in
           match snd c with
           | None => setcell h a (fst c, q)
           | Some b => append_cell f h b q
           end
  end.
(** l << item; the new cell is made when the end of l is reached, which makes no difference. *)
Definition push_back (fuel : nat) (h : heap) (p : ptr) (x : T) : res (heap * ptr) :=
  let (h1, q) := mk1 h x in
  match p with
  | None => Ok (h1, q)
  | Some a => let* h2 := append_cell fuel h1 a q in Ok (h2, p)
  end.
(** l1 << l2 *)
Definition append (fuel : nat) (h : heap) (p q : ptr) : res (heap * ptr) :=
  match p with
  | None => Ok (h, q)
  | Some a => let* h2 := append_cell fuel h a q in Ok (h2, p)
  end.
(** item >> l : list.ipp:63-67 *)
Definition push_front (h : heap) (x : T) (p : ptr) : heap * ptr := mk h x p.
(** item << l : list.ipp:69-75 *)
Definition pop (h : heap) (p : ptr) : res (T * ptr) := match p with None => UB | Some a => deref h a end.

(** list.ipp:77-93: the last cell, found by the loop of last_item or the recursion of
    access_last. *)
Fixpoint last_loop (fuel : nat) (h : heap) (a : nat) : res nat :=
  match fuel with
  | O => Fuel
  | S f => let* c := deref h a in match snd c with None => Ok a | Some b => last_loop f h b end
  end.
Definition last_item (fuel : nat) (h : heap) (p : ptr) : res T :=
  match p with None => Throw | Some a => let* b := last_loop fuel h a in let* c := deref h b in Ok (fst c) end.
Definition access_last (fuel : nat) (h : heap) (p : ptr) : res nat :=
  match p with None => Throw | Some a => last_loop fuel h a end.
(** list.ipp:95-102: the recursion on a list of two or more items, then the function, which
    gives the heap and the new value of the variable l. *)
Fixpoint suppress_cell (fuel : nat) (h : heap) (a : nat) : res heap :=
  match fuel with
  | O => Fuel
  | S f => let* c := deref h a in
           match snd c with
           | None => UB                          (* not called on a list of one item *)
           | Some b => let* d := deref h b in
                       if is_nil (snd d) then setcell h a (fst c, None) else suppress_cell f h b
           end
  end.
Definition suppress_last (fuel : nat) (h : heap) (p : ptr) : res (heap * ptr) :=
  match p with
  | None => Throw
  | Some a => let* c := deref h a in
              if is_nil (snd c) then Ok (h, None)
              else let* h' := suppress_cell fuel h a in Ok (h', p)
  end.

(** list.ipp:107-112 *)
Definition strong_equal (p q : ptr) : bool :=
  match p, q with None, None => true | Some a, Some b => Nat.eqb a b | _, _ => false end.
(** list.ipp:114-122 *)
Fixpoint leq (fuel : nat) (h : heap) (p q : ptr) : res bool :=
  match fuel with
  | O => Fuel
  | S f => match p, q with
           | Some a, Some b => let* c := deref h a in let* d := deref h b in
                               if tne (fst c) (fst d) then Ok false else leq f h (snd c) (snd d)
           | None, None => Ok true
           | _, _ => Ok false
           end
  end.
(** list.ipp:124-129 *)
Fixpoint lne (fuel : nat) (h : heap) (p q : ptr) : res bool :=
  match fuel with
  | O => Fuel
  | S f => match p, q with
           | Some a, Some b => let* c := deref h a in let* d := deref h b in
                               if tne (fst c) (fst d) then Ok true else lne f h (snd c) (snd d)
           | None, None => Ok false
           | _, _ => Ok true
           end
  end.
(** list.ipp:131-136 *)
Fixpoint llt (fuel : nat) (h : heap) (p q : ptr) : res bool :=
  match fuel with
  | O => Fuel
  | S f => match p, q with
           | Some a, Some b => let* c := deref h a in let* d := deref h b in
                               if teq (fst c) (fst d) then llt f h (snd c) (snd d) else Ok false
           | _, _ => Ok (negb (is_nil q))
           end
  end.
(** list.ipp:138-143 *)
Fixpoint lle (fuel : nat) (h : heap) (p q : ptr) : res bool :=
  match fuel with
  | O => Fuel
  | S f => match p, q with
           | Some a, Some b => let* c := deref h a in let* d := deref h b in
                               if teq (fst c) (fst d) then lle f h (snd c) (snd d) else Ok false
           | _, _ => Ok (is_nil p)
           end
  end.

(** list.ipp:149-160 *)
Fixpoint count_loop (fuel : nat) (h : heap) (a : nat) (cnt : Z) : res Z :=
  match fuel with
  | O => Fuel
  | S f => let* c := deref h a in
           match snd c with None => Ok cnt | Some b => let* cnt' := chk32 (cnt + 1) in count_loop f h b cnt' end
  end.
Definition count (fuel : nat) (h : heap) (p : ptr) : res Z := match p with None => Ok 0 | Some a => count_loop fuel h a 1 end.
(** list.ipp:162-167 *)
Fixpoint copy (fuel : nat) (h : heap) (p : ptr) : res (heap * ptr) :=
  match fuel with
  | O => Fuel
  | S f => match p with
           | None => Ok (h, None)
           | Some a => let* c := deref h a in
                       let* r := copy f h (snd c) in Ok (mk (fst r) (fst c) (snd r))
           end
  end.
(** list.ipp:169-174; x becomes a list of one item (list.hpp:137-138). *)
Fixpoint snoc (fuel : nat) (h : heap) (p : ptr) (x : T) : res (heap * ptr) :=
  match fuel with
  | O => Fuel
  | S f => match p with
           | None => Ok (mk1 h x)
           | Some a => let* c := deref h a in
                       let* r := snoc f h (snd c) x in Ok (mk (fst r) (fst c) (snd r))
           end
  end.
(** list.ipp:176-181 *)
Fixpoint concat_lists (fuel : nat) (h : heap) (p q : ptr) : res (heap * ptr) :=
  match fuel with
  | O => Fuel
  | S f => match p with
           | None => copy fuel h q
           | Some a => let* c := deref h a in
                       let* r := concat_lists f h (snd c) q in Ok (mk (fst r) (fst c) (snd r))
           end
  end.
(** list.ipp:183-189 *)
Fixpoint head (fuel : nat) (h : heap) (p : ptr) (n : Z) : res (heap * ptr) :=
  match fuel with
  | O => Fuel
  | S f => if n =? 0 then Ok (h, None)
           else match p with
                | None => Throw
                | Some a => let* c := deref h a in let* n' := chk32 (n - 1) in
                            let* r := head f h (snd c) n' in Ok (mk (fst r) (fst c) (snd r))
                end
  end.
(** list.ipp:191-199 *)
Fixpoint tail_loop (steps : nat) (h : heap) (p : ptr) : res ptr :=
  match steps with
  | O => Ok p
  | S s => match p with None => Throw | Some a => let* c := deref h a in tail_loop s h (snd c) end
  end.
Definition tail (h : heap) (p : ptr) (n : Z) : res ptr := tail_loop (Z.to_nat n) h p.
(** list.ipp:201-210 *)
Fixpoint reverse_loop (fuel : nat) (h : heap) (p r : ptr) : res (heap * ptr) :=
  match fuel with
  | O => Fuel
  | S f => match p with
           | None => Ok (h, r)
           | Some a => let* c := deref h a in let (h1, r1) := mk h (fst c) r in reverse_loop f h1 (snd c) r1
           end
  end.
Definition reverse (fuel : nat) (h : heap) (p : ptr) : res (heap * ptr) := reverse_loop fuel h p None.
(** list.ipp:212-218 *)
Fixpoint remove (fuel : nat) (h : heap) (p : ptr) (what : T) : res (heap * ptr) :=
  match fuel with
  | O => Fuel
  | S f => match p with
           | None => Ok (h, p)
           | Some a => let* c := deref h a in
                       if teq (fst c) what then remove f h (snd c) what
                       else let* r := remove f h (snd c) what in Ok (mk (fst r) (fst c) (snd r))
           end
  end.
(** list.ipp:220-227 *)
Fixpoint contains (fuel : nat) (h : heap) (p : ptr) (what : T) : res bool :=
  match fuel with
  | O => Fuel
  | S f => match p with
           | None => Ok false
           | Some a => let* c := deref h a in
                       if teq (fst c) what then Ok true else contains f h (snd c) what
           end
  end.
End L.
Arguments cell T : clear implicits.
Arguments heap T : clear implicits.
