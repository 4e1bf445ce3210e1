(** Stacks of overlays. *)
From Verif Require Import Base Model.Hashmap Model.RelHashmap Spec.Hashmap.
Local Open Scope Z_scope.

Section Spec.
Context {K V : Type}.
Variable keq : K -> K -> bool.
Variable veq : V -> V -> bool.
(** The newest layer first. *)
Definition layers := list (dmap K V).
(** The entry of the newest layer that has one. *)
Fixpoint lookup (r : layers) (x : K) : option V :=
  match r with
  | [] => None
  | d :: r' => match d_map d x with Some v => Some v | None => lookup r' x end
  end.
(** Otherwise the default value of the oldest layer, the base. *)
Definition base_default (d : dmap K V) (r : layers) : V := d_init (last r d).
Definition lread (d : dmap K V) (r : layers) (x : K) : V :=
  match lookup (d :: r) x with Some v => v | None => base_default d r end.

Definition with_map (d : dmap K V) (m : fmap K V) : dmap K V := DMap (d_init d) (d_max d) m.
(** The state: the heap of hash maps and the stack. *)
Definition fstate := (fheap K V * layers)%type.
(** The changes that say something new. *)
Definition real_changes (ch : fmap K V) (now : K -> V) : fmap K V :=
  fun y => match ch y with Some v => if veq v (now y) then None else Some v | None => None end.
(** The changes, with the old values of the keys of a layer. *)
Definition old_values (ch top : fmap K V) (old : K -> V) : fmap K V :=
  fun y => match ch y with Some v => Some v | None => match top y with Some _ => Some (old y) | None => None end end.
Inductive lstep : rop K V -> fstate -> fstate -> Prop :=
| l_map o s s' r : fstep keq veq o s s' -> lstep (RMap o) (s, r) (s', r)
| l_set x v s d r : lstep (RSet x v) (s, d :: r) (s, with_map d (fset keq (d_map d) x v) :: r)
| l_touch x s d r : lstep (RTouch x) (s, d :: r)
    (s, with_map d (match d_map d x with
                    | Some _ => d_map d
                    | None => fset keq (d_map d) x (match lookup r x with Some v => v | None => d_init d end)
                    end) :: r)
| l_extend s d r : lstep RExtend (s, d :: r) (s, DMap (d_init d) 1 (fun _ => None) :: d :: r)
| l_shorten s d d' r : lstep RShorten (s, d :: d' :: r) (s, d' :: r)
| l_merge s d d' r : lstep RMerge (s, d :: d' :: r) (s, with_map d' (fover (d_map d) (d_map d')) :: r)
| l_change k s d r c : nth_error s k = Some c ->
    lstep (RChange k) (s, d :: r) (s, with_map d (fover (d_map c) (d_map d)) :: r)
| l_find_changes k s d r c : nth_error s k = Some c ->
    lstep (RFindChanges k) (s, d :: r) (fput s k (with_map c (real_changes (d_map c) (lread d r))), d :: r)
| l_find_differences k s d d' r c : nth_error s k = Some c -> fsmall (fover (d_map d) (d_map c)) ->
    lstep (RFindDifferences k) (s, d :: d' :: r)
      (fput s k (with_map c (real_changes (old_values (d_map c) (d_map d) (lread d' r)) (lread d (d' :: r)))), d :: d' :: r).
(** No map ever has 2^30 keys or more. *)
Definition all_small (q : fstate) : Prop :=
  Forall (fun p => fsmall (d_map p)) (fst q) /\ Forall (fun p => fsmall (d_map p)) (snd q).
Inductive lrun : list (rop K V) -> fstate -> fstate -> Prop :=
| lrun_nil q : lrun [] q q
| lrun_cons o os q q1 q2 : lstep o q q1 -> all_small q1 -> lrun os q1 q2 -> lrun (o :: os) q q2.
(** The start: no maps, and rel_hashmap (init). *)
Definition lstart (init : V) : fstate := ([], [DMap init 1 (fun _ => None)]).
End Spec.
(** The value of a key according to a list of changes to a relative hash map. *)
Definition over_rel {K V} keq hash (ch : hmap K V) (r : rmap K V) (x : K) : res V :=
  let* c := hm_contains keq hash ch x in if c then hm_get keq hash ch x else rh_get keq hash r x.
Arguments layers K V : clear implicits.
Arguments fstate K V : clear implicits.
