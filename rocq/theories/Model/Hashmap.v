(** Hash maps: /repo/Kernel/Containers/hashmap.hpp, hashmap.ipp and hashmap_extra.ipp.
    Keys of any type [K] with an equality test and any hash function; values of any type [V]
    with an equality test.  A bucket is the list of the entries of its cells.
    Simplifications: the cells of a bucket belong to one map only (no operation shares them
    between maps), and copying a value ("copy (im)") has no effect of its own. *)
From Verif Require Import Base Model.Int.
Local Open Scope Z_scope.

(** ** Arrays of buckets, shared with hashset *)
Section Buckets.
Context {E : Type}.
(** tm_new_array of n empty lists: hashmap.hpp:66, hashmap.ipp:53, hashset.hpp:38,47 *)
Definition new_buckets (n : Z) : res (list (list E)) :=
  if n <? 0 then UB else Ok (repeat [] (Z.to_nat n)).
(** a[i], a read or a write through the pointer a. *)
Definition bucket (a : list (list E)) (i : Z) : res (list E) :=
  if i <? 0 then UB else match nth_error a (Z.to_nat i) with Some l => Ok l | None => UB end.
Definition set_bucket (a : list (list E)) (i : Z) (l : list E) : res (list (list E)) :=
  if (0 <=? i) && (i <? Z.of_nat (length a))
  then Ok (firstn (Z.to_nat i) a ++ l :: skipn (S (Z.to_nat i)) a) else UB.
(** "for (i= 0; i < n; i++) for (l= a[i]; !is_nil (l); l= l->next)": the items seen. *)
Fixpoint collect (steps : nat) (a : list (list E)) (i : Z) : res (list E) :=
  match steps with
  | O => Ok []
  | S s => let* l := bucket a i in let* r := collect s a (i + 1) in Ok (l ++ r)
  end.
(** hashmap.ipp:55-60, hashset.ipp:24-29: each item goes to the front of its new bucket. *)
Fixpoint rehash (idx : E -> Z) (a : list (list E)) (es : list E) : res (list (list E)) :=
  match es with
  | [] => Ok a
  | e :: es' => let* l := bucket a (idx e) in
                let* a' := set_bucket a (idx e) (e :: l) in rehash idx a' es'
  end.
End Buckets.

Section Hashmap.
Context {K V : Type}.
Variable keq : K -> K -> bool.        (* == on keys *)
Variable hash : K -> Z.               (* hash (T) *)

(** hashmap.hpp:39-45 *)
Record entry := Entry { ecode : Z; ekey : K; eim : V }.
(** hashmap.hpp:47-52 *)
Record hmap := Hmap { hsize : Z; hn : Z; hmax : Z; hinit : V; ha : list (list entry) }.

(** hashmap.hpp:64-66 *)
Definition hm_new (init : V) (n max : Z) : res hmap :=
  let* a := new_buckets n in Ok (Hmap 0 n max init a).
Definition hm_entries (h : hmap) : res (list entry) := collect (Z.to_nat (hn h)) (ha h) 0.
Definition hm_index (h : hmap) (hv : Z) : Z := Z.land hv (hn h - 1).

(** hashmap.ipp:47-63 *)
Definition hm_resize (h : hmap) (n2 : Z) : res hmap :=
  let* a := new_buckets n2 in
  let* es := hm_entries h in
  let* a' := rehash (fun e => Z.land (hash (ekey e)) (n2 - 1)) a es in
  Ok (Hmap (hsize h) n2 (hmax h) (hinit h) a').

(** The search loop of hashmap.ipp:69-72, 85-88, 100-103 and hashmap_extra.ipp:23-26, 33-39:
    the position in the bucket and the value. *)
Fixpoint find_entry (hv : Z) (x : K) (l : list entry) : option (nat * V) :=
  match l with
  | [] => None
  | e :: l' => if (ecode e =? hv) && keq (ekey e) x then Some (O, eim e)
               else match find_entry hv x l' with Some (p, v) => Some (S p, v) | None => None end
  end.
(** hashmap.ipp:65-74 *)
Definition hm_contains (h : hmap) (x : K) : res bool :=
  let* l := bucket (ha h) (hm_index h (hash x)) in
  Ok (match find_entry (hash x) x l with Some _ => true | None => false end).
(** hashmap.ipp:76-79 *)
Definition hm_empty (h : hmap) : bool := hsize h =? 0.
(** hashmap.ipp:96-105 and hashmap.hpp:204 *)
Definition hm_get (h : hmap) (x : K) : res V :=
  let* l := bucket (ha h) (hm_index h (hash x)) in
  Ok (match find_entry (hash x) x l with Some (_, v) => v | None => hinit h end).

(** A reference U& into the map: bucket and position of the cell. *)
Definition ref := (Z * nat)%type.
(** hashmap.ipp:89-93: a new cell in front of the bucket, after a possible resize. *)
Definition hm_insert (h : hmap) (x : K) : res (hmap * ref) :=
  let* nm := chk32 (hn h * hmax h) in
  let* h1 := (if nm <=? hsize h then let* n2 := shl32 (hn h) 1 in hm_resize h n2 else Ok h) in
  let i := hm_index h1 (hash x) in
  let* l := bucket (ha h1) i in
  let* a := set_bucket (ha h1) i (Entry (hash x) x (hinit h1) :: l) in
  let* s := chk32 (hsize h1 + 1) in
  Ok (Hmap s (hn h1) (hmax h1) (hinit h1) a, (i, O)).
(** hashmap.ipp:81-94 and hashmap.hpp:212 *)
Definition hm_ref (h : hmap) (x : K) : res (hmap * ref) :=
  let i := hm_index h (hash x) in
  let* l := bucket (ha h) i in
  match find_entry (hash x) x l with
  | Some (p, _) => Ok (h, (i, p))
  | None => hm_insert h x
  end.
Fixpoint set_im (l : list entry) (p : nat) (v : V) : res (list entry) :=
  match l, p with
  | [], _ => UB
  | e :: l', O => Ok (Entry (ecode e) (ekey e) v :: l')
  | e :: l', S p' => let* l1 := set_im l' p' v in Ok (e :: l1)
  end.
(** Assignment through a reference. *)
Definition hm_store (h : hmap) (r : ref) (v : V) : res hmap :=
  let* l := bucket (ha h) (fst r) in
  let* l' := set_im l (snd r) v in
  let* a := set_bucket (ha h) (fst r) l' in
  Ok (Hmap (hsize h) (hn h) (hmax h) (hinit h) a).
(** h (x)= v *)
Definition hm_set (h : hmap) (x : K) (v : V) : res hmap :=
  let* p := hm_ref h x in hm_store (fst p) (snd p) v.
(** h (x), whose reference is not used *)
Definition hm_touch (h : hmap) (x : K) : res hmap := let* p := hm_ref h x in Ok (fst p).

(** hashmap.ipp:111-119: the bucket without the first matching cell. *)
Fixpoint drop_entry (hv : Z) (x : K) (l : list entry) : option (list entry) :=
  match l with
  | [] => None
  | e :: l' => if (ecode e =? hv) && keq (ekey e) x then Some l'
               else match drop_entry hv x l' with Some r => Some (e :: r) | None => None end
  end.
(** hashmap.ipp:107-120 *)
Definition hm_reset (h : hmap) (x : K) : res hmap :=
  let i := hm_index h (hash x) in
  let* l := bucket (ha h) i in
  match drop_entry (hash x) x l with
  | None => Ok h
  | Some l' =>
      let* a := set_bucket (ha h) i l' in
      let s := hsize h - 1 in
      let h1 := Hmap s (hn h) (hmax h) (hinit h) a in
      let* nm := chk32 (Z.shiftr (hn h) 1 * hmax h) in
      if s <? nm then hm_resize h1 (Z.shiftr (hn h) 1) else Ok h1
  end.
(** hashmap.ipp:122-132: the keys given to the routine, in order. *)
Definition hm_generate (h : hmap) : res (list K) :=
  let* es := hm_entries h in Ok (map ekey es).
(** hashmap.ipp:149-157.  Joining a map to itself finds every key present, so that reading
    all entries beforehand makes no difference. *)
Fixpoint join_entries (h : hmap) (es : list entry) : res hmap :=
  match es with
  | [] => Ok h
  | e :: es' => let* h' := hm_set h (ekey e) (eim e) in join_entries h' es'
  end.
Definition hm_join (h h' : hmap) : res hmap := let* es := hm_entries h' in join_entries h es.
(** hashmap_extra.ipp:71-88; the copied buckets are equal to the originals. *)
Fixpoint copy_buckets (steps : nat) (h : hmap) (i : Z) (a : list (list entry)) : res (list (list entry)) :=
  match steps with
  | O => Ok a
  | S s => let* l := bucket (ha h) i in let* a' := set_bucket a i l in copy_buckets s h (i + 1) a'
  end.
Definition hm_copy (h : hmap) : res hmap :=
  let* h2 := hm_new (hinit h) (hn h) (hmax h) in
  let* a := copy_buckets (Z.to_nat (hn h)) h 0 (ha h2) in
  Ok (Hmap (hsize h) (hn h2) (hmax h2) (hinit h2) a).

(** ** Comparison and patches *)
Variable vne veq : V -> V -> bool.     (* != and == on values *)
(** hashmap.ipp:159-174 *)
Fixpoint eq_entries (h2 : hmap) (es : list entry) : res bool :=
  match es with
  | [] => Ok true
  | e :: es' => let* v := hm_get h2 (ekey e) in
                if vne v (eim e) then Ok false else eq_entries h2 es'
  end.
Definition hm_eq (h1 h2 : hmap) : res bool :=
  if negb (hsize h1 =? hsize h2) then Ok false
  else let* es := hm_entries h1 in eq_entries h2 es.
Definition hm_ne (h1 h2 : hmap) : res bool := let* b := hm_eq h1 h2 in Ok (negb b).

(** hashmap_extra.ipp:19-41 *)
Definition hm_write_back (h : hmap) (x : K) (base : hmap) : res hmap :=
  let* l := bucket (ha h) (hm_index h (hash x)) in
  match find_entry (hash x) x l with
  | Some _ => Ok h
  | None =>
      let* p := hm_insert h x in
      let* bl := bucket (ha base) (hm_index base (hash x)) in
      match find_entry (hash x) x bl with
      | Some (_, v) => hm_store (fst p) (snd p) v
      | None => hm_store (fst p) (snd p) (hinit base)
      end
  end.
(** hashmap_extra.ipp:43-55, the patch being another map than this one.  The base may be this
    map: at each key it is read before the map is changed there, so that reading the base as
    it was before the loop makes no difference. *)
Fixpoint pre_entries (h base : hmap) (es : list entry) : res hmap :=
  match es with
  | [] => Ok h
  | e :: es' =>
      let x := ekey e in
      let* c := hm_contains h x in
      let* y := (if c then hm_get h x else Ok (eim e)) in
      let* b := hm_get base x in
      let* h' := (if veq b y then hm_reset h x else hm_set h x y) in
      pre_entries h' base es'
  end.
Definition hm_pre_patch (h patch base : hmap) : res hmap :=
  let* es := hm_entries patch in pre_entries h base es.
(** hashmap_extra.ipp:57-69, likewise *)
Fixpoint post_entries (h base : hmap) (es : list entry) : res hmap :=
  match es with
  | [] => Ok h
  | e :: es' =>
      let x := ekey e in
      let y := eim e in
      let* b := hm_get base x in
      let* h' := (if veq b y then hm_reset h x else hm_set h x y) in
      post_entries h' base es'
  end.
Definition hm_post_patch (h patch base : hmap) : res hmap :=
  let* es := hm_entries patch in post_entries h base es.
(** hashmap_extra.ipp:90-102 *)
Fixpoint changes_entries (h base : hmap) (es : list entry) : res hmap :=
  match es with
  | [] => Ok h
  | e :: es' =>
      let* b := hm_get base (ekey e) in
      let* h' := (if vne (eim e) b then hm_set h (ekey e) (eim e) else Ok h) in
      changes_entries h' base es'
  end.
Definition hm_changes (patch base : hmap) : res hmap :=
  let* h := hm_new (hinit base) 1 1 in
  let* es := hm_entries patch in changes_entries h base es.
(** hashmap_extra.ipp:104-116 *)
Fixpoint invert_entries (h base : hmap) (es : list entry) : res hmap :=
  match es with
  | [] => Ok h
  | e :: es' =>
      let* b := hm_get base (ekey e) in
      let* h' := (if vne (eim e) b then hm_set h (ekey e) b else Ok h) in
      invert_entries h' base es'
  end.
Definition hm_invert (patch base : hmap) : res hmap :=
  let* h := hm_new (hinit base) 1 1 in
  let* es := hm_entries patch in invert_entries h base es.

(** ** Programs on several maps *)
Inductive hop :=
| HNew (init : V) (n max : Z)        (* hashmap (init, n, max) *)
| HCopy (k : nat)                    (* copy (h) *)
| HSet (k : nat) (x : K) (v : V)     (* h (x)= v *)
| HTouch (k : nat) (x : K)           (* h (x) *)
| HReset (k : nat) (x : K)           (* h->reset (x) *)
| HResize (k : nat) (n : Z)          (* h->resize (n) *)
| HJoin (k k' : nat)                 (* h->join (h') *)
| HWriteBack (k : nat) (x : K) (b : nat)   (* h->write_back (x, base) *)
| HPre (k p b : nat)                 (* h->pre_patch (patch, base) *)
| HPost (k p b : nat)                (* h->post_patch (patch, base) *)
| HChanges (p b : nat)               (* changes (patch, base) *)
| HInvert (p b : nat).               (* invert (patch, base) *)
Definition hheap := list hmap.
Definition hget (s : hheap) (k : nat) : res hmap := match nth_error s k with Some h => Ok h | None => UB end.
Fixpoint hput (s : hheap) (k : nat) (h : hmap) : hheap :=
  match s, k with [], _ => [] | _ :: s', O => h :: s' | x :: s', S k' => x :: hput s' k' h end.
Definition hupd (s : hheap) (k : nat) (f : hmap -> res hmap) : res hheap :=
  let* h := hget s k in let* h' := f h in Ok (hput s k h').
Definition hstep (o : hop) (s : hheap) : res hheap :=
  match o with
  | HNew init n max => let* h := hm_new init n max in Ok (s ++ [h])
  | HCopy k => let* h := hget s k in let* h' := hm_copy h in Ok (s ++ [h'])
  | HSet k x v => hupd s k (fun h => hm_set h x v)
  | HTouch k x => hupd s k (fun h => hm_touch h x)
  | HReset k x => hupd s k (fun h => hm_reset h x)
  | HResize k n => hupd s k (fun h => hm_resize h n)
  | HJoin k k' => let* h' := hget s k' in hupd s k (fun h => hm_join h h')
  | HWriteBack k x b => let* base := hget s b in hupd s k (fun h => hm_write_back h x base)
  | HPre k p b => let* patch := hget s p in let* base := hget s b in hupd s k (fun h => hm_pre_patch h patch base)
  | HPost k p b => let* patch := hget s p in let* base := hget s b in hupd s k (fun h => hm_post_patch h patch base)
  | HChanges p b => let* patch := hget s p in let* base := hget s b in let* h := hm_changes patch base in Ok (s ++ [h])
  | HInvert p b => let* patch := hget s p in let* base := hget s b in let* h := hm_invert patch base in Ok (s ++ [h])
  end.
Fixpoint hrun (os : list hop) (s : hheap) : res hheap :=
  match os with [] => Ok s | o :: os' => let* s' := hstep o s in hrun os' s' end.
End Hashmap.
Arguments entry K V : clear implicits.
Arguments hmap K V : clear implicits.
Arguments hop K V : clear implicits.
Arguments hheap K V : clear implicits.
