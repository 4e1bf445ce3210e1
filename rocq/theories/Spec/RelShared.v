(** Relative hash maps that share layers: every map has its own layer, a finite map that may also be the layer of others,
    and possibly a map below it.  What is not in the layer is read from the map below as it is at the time of reading. *)
From Verif Require Import Base Model.Hashmap Model.RelHashmap Model.RelShared Spec.Hashmap Spec.RelHashmap.
Local Open Scope Z_scope.

(** The layers from map [p] downwards. *)
Inductive below (R : list rrep) : option nat -> list nat -> Prop :=
| below_none : below R None []
| below_some p i n l : nth_error R p = Some (Rrep i n) -> below R n l -> below R (Some p) (i :: l).
(** [p] is reached from [q] by going down. *)
Inductive reaches (R : list rrep) : nat -> nat -> Prop :=
| reach_self q : reaches R q q
| reach_next q i n p : nth_error R q = Some (Rrep i (Some n)) -> reaches R n p -> reaches R q p.

(** Going down the layers [l], layer [i] is met before any other layer that has the key. *)
Fixpoint exposes (has : nat -> bool) (i : nat) (l : list nat) : bool :=
  match l with
  | [] => false
  | k :: l' => if Nat.eqb k i then true else if has k then false else exposes has i l'
  end.

Section Spec.
Context {K V : Type}.
Variable keq : K -> K -> bool.
Variable veq : V -> V -> bool.
(** The finite maps, and the maps with their layers. *)
Definition pstate := (fheap K V * list rrep)%type.
(** The contents of the layers with the numbers [l]. *)
Definition contents (s : fheap K V) (l : list nat) (ds : layers K V) : Prop := Forall2 (fun k d => nth_error s k = Some d) l ds.
Definition stack (q : pstate) (p : option nat) (ds : layers K V) : Prop := exists l, below (snd q) p l /\ contents (fst q) l ds.
(** The value of a key in a map: that of the newest layer that has it. *)
Definition reads (q : pstate) (p : nat) (x : K) (v : V) : Prop := exists d ds, stack q (Some p) (d :: ds) /\ v = lread d ds x.

Inductive pstep : sop K V -> pstate -> pstate -> Prop :=
| p_map o s s' R : fstep keq veq o s s' -> pstep (SMap o) (s, R) (s', R)
| p_new init s R : pstep (SNew init) (s, R) (s ++ [DMap init 1 (fun _ => None)], R ++ [Rrep (length s) None])
| p_over k n s R : (k < length s)%nat -> (forall q, n = Some q -> (q < length R)%nat) -> pstep (SOver k n) (s, R) (s, R ++ [Rrep k n])
| p_set p x v s R i n d : nth_error R p = Some (Rrep i n) -> nth_error s i = Some d ->
    pstep (SSet p x v) (s, R) (fput s i (with_map d (fset keq (d_map d) x v)), R)
| p_touch p x s R i n d ds : nth_error R p = Some (Rrep i n) -> nth_error s i = Some d -> stack (s, R) n ds ->
    pstep (STouch p x) (s, R)
      (fput s i (with_map d (match d_map d x with
                             | Some _ => d_map d
                             | None => fset keq (d_map d) x (match lookup ds x with Some v => v | None => d_init d end)
                             end)), R)
| p_extend p s R i n d : nth_error R p = Some (Rrep i n) -> nth_error s i = Some d ->
    pstep (SExtend p) (s, R) (s ++ [DMap (d_init d) 1 (fun _ => None)], rput (R ++ [Rrep i n]) p (Rrep (length s) (Some (length R))))
| p_shorten p s R i q j n : nth_error R p = Some (Rrep i (Some q)) -> nth_error R q = Some (Rrep j n) ->
    pstep (SShorten p) (s, R) (s, rput R p (Rrep j n))
| p_merge p s R i q j n d d' : nth_error R p = Some (Rrep i (Some q)) -> nth_error R q = Some (Rrep j n) ->
    nth_error s i = Some d -> nth_error s j = Some d' ->
    pstep (SMerge p) (s, R) (fput s j (with_map d' (fover (d_map d) (d_map d'))), rput R p (Rrep j n))
| p_change p k s R i n d c : nth_error R p = Some (Rrep i n) -> nth_error s i = Some d -> nth_error s k = Some c ->
    pstep (SChange p k) (s, R) (fput s i (with_map d (fover (d_map c) (d_map d))), R)
| p_find_changes p k s R d ds c : stack (s, R) (Some p) (d :: ds) -> nth_error s k = Some c ->
    pstep (SFindChanges p k) (s, R) (fput s k (with_map c (real_changes veq (d_map c) (lread d ds))), R)
| p_find_differences p k s R d d' ds c : stack (s, R) (Some p) (d :: d' :: ds) -> nth_error s k = Some c -> fsmall (fover (d_map d) (d_map c)) ->
    pstep (SFindDifferences p k) (s, R)
      (fput s k (with_map c (real_changes veq (old_values (d_map c) (d_map d) (lread d' ds)) (lread d (d' :: ds)))), R).
(** Does layer [k] have the key? *)
Definition has (s : fheap K V) (x : K) (k : nat) : bool :=
  match nth_error s k with Some d => match d_map d x with Some _ => true | None => false end | None => false end.
(** Operations through map [p] that stay above the depth at which they began: writes, and layers that are added and removed again.
    The number is that of the layers added so far. *)
Inductive own (p : nat) : nat -> list (sop K V) -> Prop :=
| own_nil d : own p d []
| own_set d x v os : own p d os -> own p d (SSet p x v :: os)
| own_touch d x os : own p d os -> own p d (STouch p x :: os)
| own_change d k os : own p d os -> own p d (SChange p k :: os)
| own_extend d os : own p (S d) os -> own p d (SExtend p :: os)
| own_shorten d os : own p d os -> own p (S d) (SShorten p :: os)
| own_merge d os : own p d os -> own p (S d) (SMerge p :: os).
(** No finite map ever has 2^30 keys or more. *)
Inductive prun : list (sop K V) -> pstate -> pstate -> Prop :=
| prun_nil q : prun [] q q
| prun_cons o os q q1 q2 : pstep o q q1 -> Forall (fun d => fsmall (d_map d)) (fst q1) -> prun os q1 q2 -> prun (o :: os) q q2.
End Spec.
Arguments pstate K V : clear implicits.
