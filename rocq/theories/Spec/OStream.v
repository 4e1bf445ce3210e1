(** Output streams as stacks of buffers over a sink (C53).  Nothing is counted or freed here. *)
From Verif Require Import Base Model.OStream Spec.StringBuf.
Local Open Scope Z_scope.

(** Sinks and buffers are numbered together.  A sink writes to a file, or nowhere, until a write
    fails; a buffer is a text. *)
Inductive aobj := ASink (f : option nat) (w : bool) | AText (t : str).
(** A file: its text, whether a stream opened it, and which of the next writes fail *)
Record afile := AFile { atext : str; aown : bool; afails : list bool }.
(** A handle is a stack of buffers with a sink below; None when it has been destroyed. *)
Record ast := ASt { afiles : list afile; objs : list aobj; stacks : list (option (list nat)); returned : list nat }.

(** What an item looks like in print: NUL characters do not appear, and a C string ends there. *)
Definition nonul (s : str) : str := filter (fun c => negb (ceqb c (chr 0))) s.
Fixpoint upto_nul (s : str) : str :=
  match s with [] => [] | c :: s' => if ceqb c (chr 0) then [] else c :: upto_nul s' end.
Definition printed (i : item) : str :=
  match i with
  | IBool true => lit "true" | IBool false => lit "false"
  | IChar c => nonul [c]
  | IInt z => decimal z
  | IText s => upto_nul s
  | IStr s => nonul s
  end.
(** Strings are printed one character per write, everything else in one write. *)
Definition writes (i : item) : list str :=
  match i with IStr s => map (fun c => nonul [c]) s | _ => [printed i] end.

(** A write to the object on top of a stack *)
Definition awrite (k : nat) (t : str) (a : ast) : ast :=
  match nth_error (objs a) k with
  | Some (AText t0) => ASt (afiles a) (put (objs a) k (AText (t0 ++ t))) (stacks a) (returned a)
  | Some (ASink (Some f) true) =>
    match nth_error (afiles a) f with
    | Some x =>
      match afails x with
      | true :: o => ASt (put (afiles a) f (AFile (atext x) (aown x) o)) (put (objs a) k (ASink (Some f) false)) (stacks a) (returned a)
      | o => ASt (put (afiles a) f (AFile (atext x ++ t) (aown x) (tl o))) (objs a) (stacks a) (returned a)
      end
    | None => a
    end
  | _ => a
  end.
Definition astack (a : ast) (h : nat) : option (list nat) :=
  match nth_error (stacks a) h with Some (Some l) => Some l | _ => None end.
Definition anew (x : aobj) (a : ast) : ast :=
  ASt (afiles a) (objs a ++ [x]) (stacks a ++ [Some [length (objs a)]]) (returned a).
Definition aset (a : ast) (h : nat) (l : option (list nat)) : ast := ASt (afiles a) (objs a) (put (stacks a) h l) (returned a).
(** None when the operation uses a handle that does not exist any more, unbuffers a handle
    without buffer, or opens a FILE that belongs to a stream. *)
Definition astep (o : oop) (a : ast) : option ast :=
  match o with
  | ONull => Some (anew (ASink None true) a)
  | OPath true fails => Some (anew (ASink (Some (length (afiles a))) true) (ASt (afiles a ++ [AFile [] true fails]) (objs a) (stacks a) (returned a)))
  | OPath false _ | OFile None => Some (anew (ASink None false) a)
  | OFile (Some f) => match nth_error (afiles a) f with
                      | Some x => if aown x then None else Some (anew (ASink (Some f) true) a)
                      | None => None end
  | OCopy h => match astack a h with Some l => Some (ASt (afiles a) (objs a) (stacks a ++ [Some l]) (returned a)) | None => None end
  | ODrop h => match astack a h with Some _ => Some (aset a h None) | None => None end
  | OAssign h h' => match astack a h, astack a h' with Some _, Some l => Some (aset a h (Some l)) | _, _ => None end
  | OBuffer h => match astack a h with
                 | Some l => Some (aset (ASt (afiles a) (objs a ++ [AText []]) (stacks a) (returned a)) h (Some (length (objs a) :: l)))
                 | None => None end
  | OUnbuffer h => match astack a h with
                   | Some (k :: k' :: l) => Some (ASt (afiles a) (objs a) (put (stacks a) h (Some (k' :: l))) (returned a ++ [k]))
                   | _ => None end
  | OPut h i => match astack a h with
                | Some (k :: _) => Some (fold_left (fun a t => awrite k t a) (writes i) a)
                | _ => None end
  end.
Fixpoint arun (os : list oop) (a : ast) : option ast :=
  match os with [] => Some a | o :: os' => match astep o a with Some a' => arun os' a' | None => None end end.
Definition astart (fs : list (str * list bool)) : ast := ASt (map (fun x => AFile (fst x) false (snd x)) fs) [] [] [].

(** A program agrees with its abstract run: the same texts in the same files, the same texts
    returned by unbuffer (in their final state), the same handles alive. *)
Definition agrees (st : ost) (a : ast) : Prop :=
  map (fun x => (ftext x, fown x, ffails x)) (files st) = map (fun x => (atext x, aown x, afails x)) (afiles a)
  /\ outs st = returned a
  /\ (forall k t, nth_error (objs a) k = Some (AText t) -> nth_error (strs st) k = Some t)
  /\ map (fun h => match h with Some _ => true | None => false end) (handles st)
     = map (fun l => match l with Some _ => true | None => false end) (stacks a)
  /\ (forall h l k, astack a h = Some (k :: l) -> exists w, is_writable k st = Ok w /\ (w = false <-> exists f, nth_error (objs a) k = Some (ASink f false))).

(** Sequences of operations on one handle h in which every buffer is unbuffered again, with the
    text that they print at the outer level *)
Inductive balanced (h : nat) : list oop -> str -> Prop :=
| bal_nil : balanced h [] []
| bal_put i os t : balanced h os t -> balanced h (OPut h i :: os) (printed i ++ t)
| bal_buffer os t os' t' : balanced h os t -> balanced h os' t' -> balanced h (OBuffer h :: os ++ OUnbuffer h :: os') t'.
