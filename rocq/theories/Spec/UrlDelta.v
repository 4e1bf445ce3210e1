(** Specification of delta and relative (C50). *)
From Verif Require Import Base Model.Url Spec.Url.

(** A component other than ".." that is not a wildcard *)
Definition atom_name (c : url) : Prop := proper c /\ is_atomic c = true.
(** delta base u is d *)
Definition is_delta (base u d : url) : Prop := eventually (fun f => delta f base u) (Ok d).
(** relative base d has the outcome r *)
Definition is_relative (base d : url) (r : res url) : Prop := eventually (fun f => relative f base d) r.
(** relative (base, delta (base, u)) is u, and delta (base, u) does not start at a root *)
Definition relative_law (base u : url) : Prop := exists d, is_delta base u d /\ is_rooted d = false /\ is_relative base d (Ok u).
(** the same, with u itself as the difference *)
Definition no_difference (base u : url) : Prop := is_delta base u u /\ is_relative base u (Ok u).
(** relative (base, delta (base, u)) is not u *)
Definition law_fails (base u : url) : Prop := exists d r, is_delta base u d /\ is_relative base d r /\ r <> Ok u.
(** u starts at the root r *)
Definition starts_at (r u : url) : Prop := u = r \/ exists v, u = Concat r v.
