(** What a started command gets (C73). *)
From Verif Require Import Base Model.Int Model.NumStr Model.Array Model.Spawn Spec.Array.
Local Open Scope Z_scope.

(** ** Descriptors *)
Definition ends (l : list channel) : list Z := flat_map (fun x => [rd x; wr x]) l.
(** The descriptors asked for; a negative one for an input asks for none. *)
Definition asked (ins outs : list channel) : list Z := filter (fun d => 0 <=? d) (map fd ins) ++ map fd outs.
(** The pipes are open in [t], their descriptors are new and different: they are not open in [t0], the
    table before they were made. *)
Definition piped {O} (t0 t : table O) (ins outs : list channel) : Prop :=
  NoDup (ends (ins ++ outs)) /\ (forall d, In d (ends (ins ++ outs)) -> 0 <= d /\ t0 d = None /\ t d <> None)
  /\ (forall d, ~ In d (ends (ins ++ outs)) -> t d = t0 d).
(** [t'] is what the command should get when the caller has [t]. *)
Definition provided {O} (t t' : table O) (ins outs : list channel) : Prop :=
  (forall x, In x ins -> t' (wr x) = None /\ if fd x <? 0 then t' (rd x) = t (rd x) else t' (fd x) = t (rd x) /\ t' (rd x) = None)
  /\ (forall x, In x outs -> t' (fd x) = t (wr x) /\ t' (wr x) = None /\ t' (rd x) = None)
  /\ (forall d, ~ In d (ends (ins ++ outs)) -> ~ In d (asked ins outs) -> t' d = t d).

(** ** Arguments *)
(** An argument is made of texts without dollars and of references $$i to inputs with one digit. *)
Inductive piece := Plain (s : str) | Ref (i : Z).
Definition plain_text (p : piece) : Prop := match p with Plain s => ~ In "$"%char s | Ref i => 0 <= i < 10 end.
Definition digit (i : Z) : ascii := chr (48 + i).
Definition written (p : piece) : str := match p with Plain s => s | Ref i => lit "$$" ++ [digit i] end.
(** What it should be for the command: the number of the reading end, if the input asks for no descriptor. *)
Definition meant (ins : list channel) (p : piece) : str :=
  match p with
  | Plain s => s
  | Ref i => match nth_error ins (Z.to_nat i) with
             | Some x => if fd x <? 0 then as_string_int (rd x) else written p
             | None => written p
             end
  end.
Definition text (l : list piece) : str := flat_map written l.
Definition meaning (ins : list channel) (l : list piece) : str := flat_map (meant ins) l.
(** The arrays of a program, with what they hold *)
Definition holds (h : aheap str) (v : list (list str)) : Prop :=
  exists os l, alrun os [] = Some l /\ arun [] os [] = Ok h /\ map elements h = v.
Definition no_nul (s : str) : Prop := ~ In "000"%char s.
