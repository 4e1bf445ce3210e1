(** What a caller of win_system relies on; the notions are those of the operating system, not of the class Channel. *)
From Verif Require Import Base Model.Int Model.Channel.
Local Open Scope Z_scope.

(** The system chooses descriptors that are not in use. *)
Definition honest (os : system) : Prop := forall q n t d, os q n t = Some d -> 0 <= d /\ t d = None.
(** There is always a descriptor left for [q]. *)
Definition enough (os : system) (q : wanted) : Prop := forall n t, os q n t <> None.
(** A caller without pipes of its own; descriptors are not negative *)
Definition ordinary (t : table) : Prop := forall d e, t d = Some e -> 0 <= d /\ exists n, what e = Own n.
(** The descriptors that are asked for by number *)
Definition numbered (l : list (Z * dir)) : list Z := filter (fun d => 0 <=? d) (map fst l).
Definition file_at (t : Z -> option entry) (d : Z) : option file := option_map what (t d).
(** The number under which the command finds its end of the pipe: the one asked for, or the one that getPipe tells *)
Definition number (x : Z * dir) (pipe : Z) : Z := if 0 <=? fst x then fst x else pipe.

(** Channel [c] for [x] and the command's number [k]: pipe [p] leads from the one to the other. *)
Definition joined (caller : table) (command : Z -> option entry) (x : Z * dir) (c : channel) (k : Z) (p : nat) : Prop :=
  0 <= fd c /\ caller (fd c) = Some (Entry (End p (snd x)) false) /\ file_at command k = Some (End p (other (snd x))).

(** ** Sending *)
(** What has become of an input: a beginning of it was sent; all of it unless the last attempt failed; the pipe is
    closed when all of it was sent and it was not empty. *)
Definition outcome (x : str * list Z) (s : sender) : Prop :=
  text s = fst x /\ (exists rest, fst x = sent s ++ rest)
  /\ (exists used, snd x = used ++ answers s /\ (sent s = fst x \/ exists u a, used = u ++ [a] /\ a < 0))
  /\ (opened s = false <-> sent s = fst x /\ fst x <> []).

(** ** Descriptors *)
(** The descriptors that the channels of the caller keep *)
Definition kept (cs : list channel) : list Z := flat_map (fun c => if 0 <=? fd c then [fd c] else []) cs.
(** Each request has its own pipe, whose ends are the channel of the caller and the number of the command, unless the
    system had no descriptors for it; the command has no other ends of pipes. *)
Definition connected (os : system) (l : list (Z * dir)) (s : started) : Prop :=
  length (channels s) = length l /\ length (pipes s) = length l
  /\ (exists ps : list (option nat), length ps = length l
    /\ (forall i j p, nth_error ps i = Some (Some p) -> nth_error ps j = Some (Some p) -> i = j)
    /\ forall i x c k q, nth_error l i = Some x -> nth_error (channels s) i = Some c -> nth_error (pipes s) i = Some k -> nth_error ps i = Some q ->
       match q with
       | Some p => joined (tab (after s)) (command_table s) x c (number x k) p
       | None => fd c = -1 /\ exists n t, os ForPipe n t = None
       end)
  /\ forall d p e, file_at (command_table s) d = Some (End p e) ->
       exists i x k, nth_error l i = Some x /\ nth_error (pipes s) i = Some k /\ d = number x k /\ e = other (snd x).

(** ** Results *)
(** An output that is read to its end within the time *)
Definition smooth (r : receiver) : Prop := early r = None /\ Forall (fun c => c <> []) (chunks (from r)).
Definition fits (x : str * list Z) : Prop := len (fst x) <= int_max.
