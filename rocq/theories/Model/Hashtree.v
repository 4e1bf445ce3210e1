(** Trees whose nodes keep their children in a hash map: /repo/Kernel/Containers/hashtree.hpp, hashtree.ipp.

    A node is a place in a heap, a handle (class hashtree) is a place or NULL.  Counting the handles is
    left out (Model/RefCount.v); nodes stay in the heap.  operator[] is left out: "*this->contains (key)" is
    "* (this->contains (key))" and does not compile when it is used. *)
From Verif Require Import Base Model.Int Model.Hashmap.
Local Open Scope Z_scope.

Section Hashtree.
Context {K V : Type}.
Variable keq : K -> K -> bool.
Variable hash : K -> Z.
Variable dv : V.                 (* V () *)

Definition handle := option nat.
(** hashtree.hpp:23-40 *)
Record tnode := TNode { children : hmap K handle; label : V }.
Definition theap := list tnode.
Definition tget (hp : theap) (l : nat) : res tnode := match nth_error hp l with Some n => Ok n | None => UB end.
Fixpoint tput (hp : theap) (l : nat) (n : tnode) : theap :=
  match hp, l with [], _ => [] | _ :: r, O => n :: r | x :: r, S l' => x :: tput r l' n end.

(** hashtree_rep (29-30); the map is made with n= 1, max= 1 (hashmap.hpp:195) *)
Definition rep_new (hp : theap) (init : handle) (v : V) : res (theap * nat) :=
  let* c := hm_new init 1 1 in Ok (hp ++ [TNode c v], length hp).
(** hashtree () (103) *)
Definition tree_new (hp : theap) : res (theap * nat) := rep_new hp None dv.
(** hashtree (V val) (106): the initial value of the children is another node *)
Definition tree_label (hp : theap) (v : V) : res (theap * nat) :=
  let* p := tree_new hp in rep_new (fst p) (Some (snd p)) v.

(** realize (hashtree.ipp:81-88) *)
Definition realize (hp : theap) (h : handle) : res (theap * nat) :=
  match h with Some l => Ok (hp, l) | None => tree_new hp end.
(** contains (45-49) *)
Definition tree_contains (hp : theap) (l : nat) (k : K) : res bool :=
  let* n := tget hp l in hm_contains keq hash (children n) k.
(** add_child (51-56); also what the child's handle is afterwards *)
Definition add_child (hp : theap) (l : nat) (k : K) (c : handle) : res (theap * nat) :=
  let* p := realize hp c in
  let* n := tget (fst p) l in
  let* ch := hm_set keq hash (children n) k (Some (snd p)) in
  Ok (tput (fst p) l (TNode ch (label n)), snd p).
(** add_new_child (58-63) *)
Definition add_new_child (hp : theap) (l : nat) (k : K) : res theap :=
  let* p := tree_new hp in
  let* q := add_child (fst p) l k (Some (snd p)) in Ok (fst q).
(** set_label (65-69), get_label (71-75) *)
Definition set_label (hp : theap) (l : nat) (v : V) : res theap :=
  let* n := tget hp l in Ok (tput hp l (TNode (children n) v)).
Definition get_label (hp : theap) (l : nat) : res V := let* n := tget hp l in Ok (label n).
(** operator() (109-115): the heap, the handle that is returned *)
Definition tree_at (hp : theap) (h : handle) (k : K) : res (theap * handle) :=
  let* p := realize hp h in
  let* b := tree_contains (fst p) (snd p) k in
  let* hp1 := (if b then Ok (fst p) else add_new_child (fst p) (snd p) k) in
  let* n := tget hp1 (snd p) in
  let* ch := hm_touch keq hash (children n) k in
  let* c := hm_get keq hash ch k in
  Ok (tput hp1 (snd p) (TNode ch (label n)), c).
(** is_nil (121-125), N (127-131) *)
Definition tree_is_nil (h : handle) : bool := match h with None => true | Some _ => false end.
Definition tree_N (hp : theap) (h : handle) : res Z :=
  let* p := realize hp h in let* n := tget (fst p) (snd p) in Ok (hsize (children n)).

(** ** Programs with variables of type hashtree; -> realizes the handle first (94-100) *)
Inductive top :=
| TNew | TLabel (v : V)                    (* hashtree<K,V> x;  hashtree<K,V> x (v); *)
| TAt (t : nat) (k : K)                    (* x= t (k) *)
| TAdd (t : nat) (k : K) (c : nat)         (* t->add_child (k, c) *)
| TAddNew (t : nat) (k : K)                (* t->add_new_child (k) *)
| TSet (t : nat) (v : V).                  (* t->set_label (v) *)
Definition tstate := (theap * list handle)%type.
Definition var (hs : list handle) (t : nat) : res handle := match nth_error hs t with Some h => Ok h | None => UB end.
Fixpoint set_var (hs : list handle) (t : nat) (h : handle) : list handle :=
  match hs, t with [], _ => [] | _ :: r, O => h :: r | x :: r, S t' => x :: set_var r t' h end.
Definition tstep (o : top) (s : tstate) : res tstate :=
  let (hp, hs) := s in
  match o with
  | TNew => let* p := tree_new hp in Ok (fst p, hs ++ [Some (snd p)])
  | TLabel v => let* p := tree_label hp v in Ok (fst p, hs ++ [Some (snd p)])
  | TAt t k => let* h := var hs t in let* p := tree_at hp h k in Ok (fst p, hs ++ [snd p])
  | TAdd t k c =>
      let* h := var hs t in let* p := realize hp h in let hs1 := set_var hs t (Some (snd p)) in
      let* hc := var hs1 c in let* q := add_child (fst p) (snd p) k hc in Ok (fst q, set_var hs1 c (Some (snd q)))
  | TAddNew t k =>
      let* h := var hs t in let* p := realize hp h in
      let* hp1 := add_new_child (fst p) (snd p) k in Ok (hp1, set_var hs t (Some (snd p)))
  | TSet t v =>
      let* h := var hs t in let* p := realize hp h in
      let* hp1 := set_label (fst p) (snd p) v in Ok (hp1, set_var hs t (Some (snd p)))
  end.
Fixpoint trun (os : list top) (s : tstate) : res tstate :=
  match os with [] => Ok s | o :: r => let* s1 := tstep o s in trun r s1 end.

(** ** Dictionaries as in the comment of hashtree.hpp:44-60: t (k1) (k2) ... *)
Fixpoint walk (hp : theap) (h : handle) (w : list K) : res (theap * handle) :=
  match w with [] => Ok (hp, h) | k :: r => let* p := tree_at hp h k in walk (fst p) (snd p) r end.
(** t (k1) ... (kn) ->set_label (v), ->get_label () *)
Definition dict_put (hp : theap) (h : handle) (w : list K) (v : V) : res theap :=
  let* p := walk hp h w in let* q := realize (fst p) (snd p) in set_label (fst q) (snd q) v.
Definition dict_look (hp : theap) (h : handle) (w : list K) : res (theap * V) :=
  let* p := walk hp h w in let* q := realize (fst p) (snd p) in let* v := get_label (fst q) (snd q) in Ok (fst q, v).
Inductive dop := DNew | DPut (i : nat) (w : list K) (v : V) | DLook (i : nat) (w : list K).
(** the heap, the dictionaries, and the labels that were read *)
Definition dstate := (theap * list handle * list V)%type.
Definition dstep (o : dop) (s : dstate) : res dstate :=
  let '(hp, hs, out) := s in
  match o with
  | DNew => let* p := tree_new hp in Ok (fst p, hs ++ [Some (snd p)], out)
  | DPut i w v => let* h := var hs i in let* hp1 := dict_put hp h w v in Ok (hp1, hs, out)
  | DLook i w => let* h := var hs i in let* p := dict_look hp h w in Ok (fst p, hs, out ++ [snd p])
  end.
Fixpoint drun (os : list dop) (s : dstate) : res dstate :=
  match os with [] => Ok s | o :: r => let* s1 := dstep o s in drun r s1 end.
End Hashtree.
Arguments tnode : clear implicits.
Arguments theap : clear implicits.
Arguments top : clear implicits.
Arguments dop : clear implicits.
