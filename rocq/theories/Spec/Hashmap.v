(** Finite maps: a default value and a partial function from keys. *)
From Verif Require Import Base Model.Hashmap.
Local Open Scope Z_scope.

Section Spec.
Context {K V : Type}.
Variable keq : K -> K -> bool.
Definition fmap := K -> option V.
Definition fset (m : fmap) (x : K) (v : V) : fmap := fun y => if keq x y then Some v else m y.
(** Several writes, in order. *)
Definition fsets (m : fmap) (es : list (K * V)) : fmap := fold_left (fun m e => fset m (fst e) (snd e)) es m.
Definition fdel (m : fmap) (x : K) : fmap := fun y => if keq x y then None else m y.
(** The entries of [m'] where it has some, those of [m] elsewhere. *)
Definition fover (m' m : fmap) : fmap := fun y => match m' y with Some v => Some v | None => m y end.
(** [m] has exactly [n] keys. *)
Definition fcard (m : fmap) (n : Z) : Prop :=
  exists ks, NoDup ks /\ (forall x, In x ks <-> m x <> None) /\ n = Z.of_nat (length ks).
(** Less than 2^30 keys. *)
Definition max_keys : Z := 1073741824.
Definition fsmall (m : fmap) : Prop := exists n, fcard m n /\ n < max_keys.
(** The value read: the entry or the default. *)
Definition fread (m : fmap) (init : V) (x : K) : V := match m x with Some v => v | None => init end.

(** Patches: a patch [p] is a map of new values, [base] gives the values it is relative to. *)
Variable veq : V -> V -> bool.
Definition fwrite_back (m : fmap) (base : K -> V) (x : K) : fmap :=
  match m x with Some _ => m | None => fset m x (base x) end.
(** Entries that say the same as the base are left out. *)
Definition fkeep (base : K -> V) (y : K) (v : V) : option V := if veq v (base y) then None else Some v.
Definition fpost (m p : fmap) (base : K -> V) : fmap :=
  fun y => match p y with Some v => fkeep base y v | None => m y end.
Definition fpre (m p : fmap) (base : K -> V) : fmap :=
  fun y => match p y with
           | Some v => match m y with Some w => fkeep base y w | None => fkeep base y v end
           | None => m y
           end.
Definition fchanges (p : fmap) (base : K -> V) : fmap :=
  fun y => match p y with Some v => fkeep base y v | None => None end.
Definition finvert (p : fmap) (base : K -> V) : fmap :=
  fun y => match fchanges p base y with Some _ => Some (base y) | None => None end.

(** A map with its default value and load factor. *)
Record dmap := DMap { d_init : V; d_max : Z; d_map : fmap }.
Definition dread (d : dmap) : K -> V := fread (d_map d) (d_init d).
Definition fheap := list dmap.
Fixpoint fput (s : fheap) (k : nat) (m : dmap) : fheap :=
  match s, k with [], _ => [] | _ :: s', O => m :: s' | x :: s', S k' => x :: fput s' k' m end.
(** One operation; table sizes given by the user are positive and their product with the
    load factor is an int; a map is not patched by itself. *)
Inductive fstep : hop K V -> fheap -> fheap -> Prop :=
| f_new init n max s : 1 <= n -> 1 <= max -> n * max <= 2147483647 ->
    fstep (HNew init n max) s (s ++ [DMap init max (fun _ => None)])
| f_copy k s d : nth_error s k = Some d -> fstep (HCopy k) s (s ++ [d])
| f_set k x v s i l m : nth_error s k = Some (DMap i l m) ->
    fstep (HSet k x v) s (fput s k (DMap i l (fset m x v)))
| f_touch k x s i l m : nth_error s k = Some (DMap i l m) ->
    fstep (HTouch k x) s (fput s k (DMap i l (match m x with Some _ => m | None => fset m x i end)))
| f_reset k x s i l m : nth_error s k = Some (DMap i l m) ->
    fstep (HReset k x) s (fput s k (DMap i l (fdel m x)))
| f_resize k n s d : nth_error s k = Some d -> 1 <= n -> n * d_max d <= 2147483647 ->
    fstep (HResize k n) s s
| f_join k k' s i l m d : nth_error s k = Some (DMap i l m) -> nth_error s k' = Some d ->
    fstep (HJoin k k') s (fput s k (DMap i l (fover (d_map d) m)))
| f_write_back k x b s i l m d : nth_error s k = Some (DMap i l m) -> nth_error s b = Some d ->
    fstep (HWriteBack k x b) s (fput s k (DMap i l (fwrite_back m (dread d) x)))
| f_pre k p b s i l m dp d : nth_error s k = Some (DMap i l m) -> nth_error s p = Some dp -> nth_error s b = Some d ->
    p <> k -> fsmall (fover (d_map dp) m) ->
    fstep (HPre k p b) s (fput s k (DMap i l (fpre m (d_map dp) (dread d))))
| f_post k p b s i l m dp d : nth_error s k = Some (DMap i l m) -> nth_error s p = Some dp -> nth_error s b = Some d ->
    p <> k -> fsmall (fover (d_map dp) m) ->
    fstep (HPost k p b) s (fput s k (DMap i l (fpost m (d_map dp) (dread d))))
| f_changes p b s dp d : nth_error s p = Some dp -> nth_error s b = Some d ->
    fstep (HChanges p b) s (s ++ [DMap (d_init d) 1 (fchanges (d_map dp) (dread d))])
| f_invert p b s dp d : nth_error s p = Some dp -> nth_error s b = Some d ->
    fstep (HInvert p b) s (s ++ [DMap (d_init d) 1 (finvert (d_map dp) (dread d))]).
(** A sequence of operations, no map ever having 2^30 keys or more. *)
Inductive frun : list (hop K V) -> fheap -> fheap -> Prop :=
| frun_nil s : frun [] s s
| frun_cons o os s s1 s2 : fstep o s s1 -> Forall (fun p => fsmall (d_map p)) s1 ->
    frun os s1 s2 -> frun (o :: os) s s2.
End Spec.

(** ** Client code of patches *)
Section Client.
Context {K V : Type}.
Variable keq : K -> K -> bool.
Variable hash : K -> Z.
(** The value of a key in a map laid over another one. *)
Definition laid_over (h base : hmap K V) (x : K) : res V :=
  let* c := hm_contains keq hash h x in if c then hm_get keq hash h x else hm_get keq hash base x.
(** Edits of a map, each preceded by recording the old value in a log:
    log->write_back (x, h); h (x)= v; *)
Fixpoint logged_edits (log h : hmap K V) (es : list (K * V)) : res (hmap K V * hmap K V) :=
  match es with
  | [] => Ok (log, h)
  | (x, v) :: es' => let* log' := hm_write_back keq hash log x h in
                     let* h' := hm_set keq hash h x v in
                     logged_edits log' h' es'
  end.
End Client.
Arguments fmap K V : clear implicits.
Arguments dmap K V : clear implicits.
Arguments fheap K V : clear implicits.
