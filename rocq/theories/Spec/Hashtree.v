(** Labelled graphs with named edges, and dictionaries. *)
From Verif Require Import Base Model.Hashtree.
Local Open Scope Z_scope.

Section Spec.
Context {K V : Type}.
Variable keq : K -> K -> bool.
Variable dv : V.

(** ** Graphs: a label for every node, and at most one edge with a given key *)
Record gnode := G { glabel : V; gchild : K -> option nat }.
Definition graph := nat -> option gnode.
Definition gempty (v : V) : gnode := G v (fun _ => None).
Definition gset (g : graph) (n : nat) (x : gnode) : graph := fun m => if (m =? n)%nat then Some x else g m.
Definition edge (x : gnode) (k : K) (n : nat) : gnode := G (glabel x) (fun j => if keq k j then Some n else gchild x j).

(** One operation on a graph with named nodes.  New nodes are not in use before. *)
Inductive gstep : top K V -> graph * list nat -> graph * list nat -> Prop :=
| g_new g hs n : g n = None -> gstep TNew (g, hs) (gset g n (gempty dv), hs ++ [n])
(** [m] is the unused initial value of the children *)
| g_label g hs v m n : g m = None -> g n = None -> m <> n -> ~ In m hs ->
    gstep (TLabel v) (g, hs) (gset (gset g m (gempty dv)) n (gempty v), hs ++ [n])
| g_at_old g hs t l x k c : nth_error hs t = Some l -> g l = Some x -> gchild x k = Some c -> gstep (TAt t k) (g, hs) (g, hs ++ [c])
| g_at_new g hs t l x k n : nth_error hs t = Some l -> g l = Some x -> gchild x k = None -> g n = None ->
    gstep (TAt t k) (g, hs) (gset (gset g n (gempty dv)) l (edge x k n), hs ++ [n])
| g_add g hs t l x k c n : nth_error hs t = Some l -> g l = Some x -> nth_error hs c = Some n ->
    gstep (TAdd t k c) (g, hs) (gset g l (edge x k n), hs)
| g_addnew g hs t l x k n : nth_error hs t = Some l -> g l = Some x -> g n = None ->
    gstep (TAddNew t k) (g, hs) (gset (gset g n (gempty dv)) l (edge x k n), hs)
| g_set g hs t l x v : nth_error hs t = Some l -> g l = Some x -> gstep (TSet t v) (g, hs) (gset g l (G v (gchild x)), hs).
Inductive grun : list (top K V) -> graph * list nat -> graph * list nat -> Prop :=
| grun_nil s : grun [] s s
| grun_cons o os s1 s2 s3 : gstep o s1 s2 -> grun os s2 s3 -> grun (o :: os) s1 s3.

(** Programs that use their variables after they have been made, with keys from [U] *)
Fixpoint legal (U : list K) (n : nat) (os : list (top K V)) : Prop :=
  match os with
  | [] => True
  | TNew :: r | TLabel _ :: r => legal U (S n) r
  | TAt t k :: r => (t < n)%nat /\ In k U /\ legal U (S n) r
  | TAdd t k c :: r => (t < n)%nat /\ (c < n)%nat /\ In k U /\ legal U n r
  | TAddNew t k :: r => (t < n)%nat /\ In k U /\ legal U n r
  | TSet t _ :: r => (t < n)%nat /\ legal U n r
  end.

(** ** Dictionaries: the label of a word, None if it has never been looked at *)
Definition dict := list K -> option V.
Definition dnew : dict := fun p => match p with [] => Some dv | _ => None end.
Fixpoint starts (p w : list K) : bool :=
  match p, w with [] , _ => true | a :: p', b :: w' => keq a b && starts p' w' | _, _ => false end.
(** Looking at a word makes it and its beginnings known. *)
Definition dvisit (d : dict) (w : list K) : dict :=
  fun p => match d p with Some v => Some v | None => if starts p w then Some dv else None end.
Definition dput (d : dict) (w : list K) (v : V) : dict :=
  fun p => if starts p w && starts w p then Some v else dvisit d w p.
Definition dread (d : dict) (w : list K) : V := match d w with Some v => v | None => dv end.
Fixpoint dupd (ds : list dict) (i : nat) (d : dict) : list dict :=
  match ds, i with [], _ => [] | _ :: r, O => d :: r | x :: r, S i' => x :: dupd r i' d end.
(** Operations on several dictionaries and the labels that are read *)
Inductive dspec : list (dop K V) -> list dict -> list dict -> list V -> Prop :=
| d_nil ds : dspec [] ds ds []
| d_new os ds ds' out : dspec os (ds ++ [dnew]) ds' out -> dspec (DNew :: os) ds ds' out
| d_put os ds i w v d ds' out : nth_error ds i = Some d -> dspec os (dupd ds i (dput d w v)) ds' out -> dspec (DPut i w v :: os) ds ds' out
| d_look os ds i w d ds' out : nth_error ds i = Some d -> dspec os (dupd ds i (dvisit d w)) ds' out -> dspec (DLook i w :: os) ds ds' (dread d w :: out).
(** The keys of the words are from [U]. *)
Fixpoint letters (U : list K) (os : list (dop K V)) : Prop :=
  match os with
  | [] => True
  | DNew :: r => letters U r
  | DPut _ w _ :: r | DLook _ w :: r => (forall k, In k w -> In k U) /\ letters U r
  end.
End Spec.
Arguments gnode : clear implicits.
Arguments graph : clear implicits.
Arguments dict : clear implicits.
