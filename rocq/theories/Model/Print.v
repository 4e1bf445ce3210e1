(** Printing of containers and tuples: the operators << to a tm_ostream of
    /repo/Kernel/Containers/array.ipp, list.ipp, ntuple.hpp, hashmap.ipp, hashset.ipp and iterator.ipp, and display_control
    (/repo/Kernel/Abstractions/basic.cpp) with rel_hashmap.ipp, which uses it.  An operator gives what it sends to the
    stream, in order (Model/OStream.v has the streams); [pr] prints the elements. *)
From Verif Require Import Base Model.Int Model.Hashmap Model.Iterator Model.Hashset Model.RelHashmap Model.OStream.
Local Open Scope Z_scope.

Definition txt (s : string) : list item := [IText (lit s)].

Section One.
Context {E : Type}.
Variable pr : E -> res (list item).

(** array.ipp:118-131; a[i] for i < N (a) is an element, and undefined elsewhere.  The loop gives the output and the i
    it ends with. *)
Definition at_index (a : list E) (i : Z) : res E :=
  if i <? 0 then UB else match nth_error a (Z.to_nat i) with Some x => Ok x | None => UB end.
Fixpoint array_loop (fuel : nat) (a : list E) (i : Z) : res (list item * Z) :=
  match fuel with
  | O => Fuel
  | S f => if i <? Z.of_nat (length a) - 1
           then let* x := at_index a i in let* o := pr x in let* r := array_loop f a (i + 1) in
                Ok (o ++ txt ", " ++ fst r, snd r)
           else Ok ([], i)
  end.
Definition show_array (a : list E) : res (list item) :=
  if Z.of_nat (length a) =? 0 then Ok (txt "[ ]")
  else
    let* r := array_loop (length a) a 0 in
    let* o := (if negb (Z.of_nat (length a) =? 0) then let* x := at_index a (snd r) in pr x else Ok []) in
    Ok (txt "[ " ++ fst r ++ o ++ txt " ]").

(** list.ipp:20-32; a list is the list of its items *)
Fixpoint list_rest (l : list E) : res (list item) :=
  match l with [] => Ok [] | x :: l' => let* o := pr x in let* r := list_rest l' in Ok (txt ", " ++ o ++ r) end.
Definition show_list (l : list E) : res (list item) :=
  let* r := match l with
            | [] => Ok []
            | x :: l' => let* o := pr x in let* r := list_rest l' in Ok (txt " " ++ o ++ r)
            end in
  Ok (txt "[" ++ r ++ txt " ]").

(** The loops of hashmap.ipp:138-144 and hashset.ipp:116-122: the output and the count j *)
Fixpoint bucket_loop (size : Z) (l : list E) (j : Z) : res (list item * Z) :=
  match l with
  | [] => Ok ([], j)
  | x :: l' => let* o := pr x in
               let sep := if negb (j =? size - 1) then txt ", " else [] in
               let* j' := chk32 (j + 1) in
               let* r := bucket_loop size l' j' in Ok (o ++ sep ++ fst r, snd r)
  end.
Fixpoint table_loop (steps : nat) (size : Z) (a : list (list E)) (i j : Z) : res (list item) :=
  match steps with
  | O => Ok []
  | S s => let* l := bucket a i in
           let* r := bucket_loop size l j in
           let* o := table_loop s size a (i + 1) (snd r) in Ok (fst r ++ o)
  end.
Definition show_table (n size : Z) (a : list (list E)) : res (list item) :=
  let* o := table_loop (Z.to_nat n) size a 0 0 in Ok (txt "{ " ++ o ++ txt " }").

(** iterator.ipp:25-36, for the iterators over hash tables; with the iterator that is left *)
Variable n : Z.
Variable a : list (list E).
Fixpoint iterator_loop (fuel : nat) (flag : bool) (it : iter E) : res (list item * iter E) :=
  match fuel with
  | O => Fuel
  | S f => let* p := busy n a it in
           if fst p then
             let sep := if flag then txt ", " else [] in
             let* q := next n a (snd p) in
             let* o := pr (fst q) in
             let* r := iterator_loop f true (snd q) in
             Ok (sep ++ o ++ fst r, snd r)
           else Ok ([], snd p)
  end.
Definition show_iterator (fuel : nat) (it : iter E) : res (list item * iter E) :=
  let* r := iterator_loop fuel false it in Ok (txt "[ " ++ fst r ++ txt " ]", snd r).
End One.

(** hashmap.ipp:26-30 and 134-147; hashset.ipp:111-125 *)
Definition show_entry {K V} (prk : K -> res (list item)) (prv : V -> res (list item)) (e : entry K V) : res (list item) :=
  let* k := prk (ekey e) in let* v := prv (eim e) in Ok (k ++ txt "->" ++ v).
Definition show_hashmap {K V} (prk : K -> res (list item)) (prv : V -> res (list item)) (h : hmap K V) : res (list item) :=
  show_table (show_entry prk prv) (hn h) (hsize h) (ha h).
Definition show_hashset {K} (prk : K -> res (list item)) (h : hset K) : res (list item) := show_table prk (sbn h) (ssize h) (sa h).
(** "out << iterate (h)": the keys of a hash map, the elements of a hash set *)
Definition show_keys {K V} (prk : K -> res (list item)) (fuel : nat) (h : hmap K V) : res (list item) :=
  let* it := it_new (ha h) in let* r := show_iterator (fun e => prk (ekey e)) (hn h) (ha h) fuel it in Ok (fst r).
Definition show_elements {K} (prk : K -> res (list item)) (fuel : nat) (h : hset K) : res (list item) :=
  let* it := it_new (sa h) in let* r := show_iterator prk (sbn h) (sa h) fuel it in Ok (fst r).

(** ntuple.hpp:38-42, 74-78, 114-119, 159-164, 210-215, given what the components print *)
Definition show_pair (x1 x2 : res (list item)) : res (list item) :=
  let* x1 := x1 in let* x2 := x2 in Ok (txt "[ " ++ x1 ++ txt ", " ++ x2 ++ txt " ]").
Definition show_triple (x1 x2 x3 : res (list item)) : res (list item) :=
  let* x1 := x1 in let* x2 := x2 in let* x3 := x3 in Ok (txt "[ " ++ x1 ++ txt ", " ++ x2 ++ txt ", " ++ x3 ++ txt " ]").
Definition show_quartet (x1 x2 x3 x4 : res (list item)) : res (list item) :=
  let* x1 := x1 in let* x2 := x2 in let* x3 := x3 in let* x4 := x4 in
  Ok (txt "[ " ++ x1 ++ txt ", " ++ x2 ++ txt ", " ++ x3 ++ txt ", " ++ x4 ++ txt " ]").
Definition show_quintuple (x1 x2 x3 x4 x5 : res (list item)) : res (list item) :=
  let* x1 := x1 in let* x2 := x2 in let* x3 := x3 in let* x4 := x4 in let* x5 := x5 in
  Ok (txt "[ " ++ x1 ++ txt ", " ++ x2 ++ txt ", " ++ x3 ++ txt ", " ++ x4 ++ txt ", " ++ x5 ++ txt " ]").
Definition show_sextuple (x1 x2 x3 x4 x5 x6 : res (list item)) : res (list item) :=
  let* x1 := x1 in let* x2 := x2 in let* x3 := x3 in let* x4 := x4 in let* x5 := x5 in let* x6 := x6 in
  Ok (txt "[ " ++ x1 ++ txt ", " ++ x2 ++ txt ", " ++ x3 ++ txt ", " ++ x4 ++ txt ", " ++ x5 ++ txt ", " ++ x6 ++ txt " ]").

(** display_control (basic.hpp:287, basic.cpp:59-83): what is sent and the new value of the static current_indent *)
Inductive display_control := INDENT | UNINDENT | HRULE | LF.
Definition spaces (n : Z) : list item := repeat (IText (lit " ")) (Z.to_nat n).
Definition show_control (c : display_control) (current_indent : Z) : res (list item * Z) :=
  match c with
  | INDENT => let* i := chk32 (current_indent + 2) in Ok (txt "  ", i)
  | UNINDENT => let* i := chk32 (current_indent - 2) in Ok ([IText [chr 8; chr 8]], i)
  | HRULE => Ok (repeat (IText (lit "-")) (Z.to_nat (78 - current_indent)) ++ [IText [chr 10]] ++ spaces current_indent, current_indent)
  | LF => Ok ([IText [chr 10]] ++ spaces current_indent, current_indent)
  end.
(** rel_hashmap.ipp:123-137; printing the layers does not change the indentation *)
Fixpoint show_layers {K V} (prk : K -> res (list item)) (prv : V -> res (list item)) (r : rmap K V) (ind : Z) : res (list item) :=
  match r with
  | [] => Ok []
  | h :: r' => let* o := show_hashmap prk prv h in
               let* c1 := show_control LF ind in
               match r' with
               | [] => Ok (o ++ fst c1)
               | _ => let* c2 := show_control HRULE ind in let* c3 := show_control LF ind in
                      let* q := show_layers prk prv r' ind in Ok (o ++ fst c1 ++ fst c2 ++ fst c3 ++ q)
               end
  end.
Definition show_rel_hashmap {K V} (prk : K -> res (list item)) (prv : V -> res (list item)) (r : rmap K V) (ind : Z) : res (list item) :=
  match r with [] => Ok (txt "(null)") | _ => show_layers prk prv r ind end.
