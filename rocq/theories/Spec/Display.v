(** Indented output (C81). *)
From Verif Require Import Base Model.OStream Model.Print Spec.OStream Spec.Print.
Local Open Scope Z_scope.

(** Where the cursor of a terminal is after a text: a newline begins a line, a backspace goes one column back, but not
    before the first column. *)
Fixpoint column (c : Z) (s : str) : Z :=
  match s with
  | [] => c
  | x :: s' => column (if ceqb x (chr 10) then 0 else if ceqb x (chr 8) then Z.max 0 (c - 1) else c + 1) s'
  end.
(** Texts of one line *)
Definition no_control (s : str) : Prop := Forall (fun x => x <> chr 10 /\ x <> chr 8 /\ x <> chr 0) s.

(** What a program prints: texts and controls, one after the other; all that is sent, with the indentation that is left *)
Inductive piece := Say (s : str) | Ctl (c : display_control).
Fixpoint display (ps : list piece) (ind : Z) : res (list item * Z) :=
  match ps with
  | [] => Ok ([], ind)
  | Say s :: r => let* x := display r ind in Ok (IStr s :: fst x, snd x)
  | Ctl c :: r => let* o := show_control c ind in let* x := display r (snd o) in Ok (fst o ++ fst x, snd x)
  end.
(** The depth of nesting after a program; it may not go below 0 and not to 2^30. *)
Definition max_depth : Z := 1073741824.
Fixpoint depth (ps : list piece) (d : Z) : option Z :=
  match ps with
  | [] => Some d
  | Say s :: r => depth r d
  | Ctl INDENT :: r => if d + 1 <? max_depth then depth r (d + 1) else None
  | Ctl UNINDENT :: r => if 0 <? d then depth r (d - 1) else None
  | Ctl _ :: r => depth r d
  end.
(** Programs that change the indentation at the beginning of a line only; [bol]: we are there. *)
Fixpoint orderly (bol : bool) (ps : list piece) : Prop :=
  match ps with
  | [] => True
  | Say s :: r => no_control s /\ orderly (match s with [] => bol | _ => false end) r
  | Ctl INDENT :: r | Ctl UNINDENT :: r => bol = true /\ orderly true r
  | Ctl _ :: r => orderly true r
  end.
Fixpoint at_bol (bol : bool) (ps : list piece) : bool :=
  match ps with
  | [] => bol
  | Say s :: r => at_bol (match s with [] => bol | _ => false end) r
  | Ctl _ :: r => at_bol true r
  end.
(** The texts of the layers of a relative hash map, with rules between them *)
Definition newline (ind : Z) : str := chr 10 :: repeat " "%char (Z.to_nat ind).
Definition rule (ind : Z) : str := repeat "-"%char (Z.to_nat (78 - ind)).
Fixpoint layered (ind : Z) (ss : list str) : str :=
  match ss with
  | [] => []
  | [s] => s ++ newline ind
  | s :: r => s ++ newline ind ++ rule ind ++ newline ind ++ newline ind ++ layered ind r
  end.
