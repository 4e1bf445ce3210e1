(** The text of numbers, strings, arrays, lists, tuples, hash sets and hash maps (C80). *)
From Verif Require Import Base Model.OStream Model.Print Spec.Search Spec.OStream.
Local Open Scope Z_scope.

(** Types of values, their values, and how they are printed *)
Inductive ty :=
| TInt | TBool | TChar | TString
| TArray (t : ty) | TList (t : ty)
| TPair (t1 t2 : ty) | TTriple (t1 t2 t3 : ty) | TQuartet (t1 t2 t3 t4 : ty)
| TQuintuple (t1 t2 t3 t4 t5 : ty) | TSextuple (t1 t2 t3 t4 t5 t6 : ty).
Fixpoint val (t : ty) : Type :=
  match t with
  | TInt => Z | TBool => bool | TChar => ascii | TString => str
  | TArray t => list (val t) | TList t => list (val t)
  | TPair t1 t2 => val t1 * val t2
  | TTriple t1 t2 t3 => val t1 * val t2 * val t3
  | TQuartet t1 t2 t3 t4 => val t1 * val t2 * val t3 * val t4
  | TQuintuple t1 t2 t3 t4 t5 => val t1 * val t2 * val t3 * val t4 * val t5
  | TSextuple t1 t2 t3 t4 t5 t6 => val t1 * val t2 * val t3 * val t4 * val t5 * val t6
  end.
(** out << v, for the operator of its type *)
Fixpoint show (t : ty) : val t -> res (list item) :=
  match t with
  | TInt => fun z => Ok [IInt z] | TBool => fun b => Ok [IBool b] | TChar => fun c => Ok [IChar c] | TString => fun s => Ok [IStr s]
  | TArray t => show_array (show t)
  | TList t => show_list (show t)
  | TPair t1 t2 => fun '(a, b) => show_pair (show t1 a) (show t2 b)
  | TTriple t1 t2 t3 => fun '(a, b, c) => show_triple (show t1 a) (show t2 b) (show t3 c)
  | TQuartet t1 t2 t3 t4 => fun '(a, b, c, d) => show_quartet (show t1 a) (show t2 b) (show t3 c) (show t4 d)
  | TQuintuple t1 t2 t3 t4 t5 => fun '(a, b, c, d, e) => show_quintuple (show t1 a) (show t2 b) (show t3 c) (show t4 d) (show t5 e)
  | TSextuple t1 t2 t3 t4 t5 t6 => fun '(a, b, c, d, e, f) => show_sextuple (show t1 a) (show t2 b) (show t3 c) (show t4 d) (show t5 e) (show t6 f)
  end.

(** The texts they should have *)
Definition listed (ss : list str) : str := match ss with [] => lit "[ ]" | _ => lit "[ " ++ join (lit ", ") ss ++ lit " ]" end.
Fixpoint text_of (t : ty) : val t -> str :=
  match t with
  | TInt => decimal
  | TBool => fun b => if b then lit "true" else lit "false"
  | TChar => fun c => nonul [c]
  | TString => nonul
  | TArray t => fun a => listed (map (text_of t) a)
  | TList t => fun a => listed (map (text_of t) a)
  | TPair t1 t2 => fun '(a, b) => listed [text_of t1 a; text_of t2 b]
  | TTriple t1 t2 t3 => fun '(a, b, c) => listed [text_of t1 a; text_of t2 b; text_of t3 c]
  | TQuartet t1 t2 t3 t4 => fun '(a, b, c, d) => listed [text_of t1 a; text_of t2 b; text_of t3 c; text_of t4 d]
  | TQuintuple t1 t2 t3 t4 t5 => fun '(a, b, c, d, e) => listed [text_of t1 a; text_of t2 b; text_of t3 c; text_of t4 d; text_of t5 e]
  | TSextuple t1 t2 t3 t4 t5 t6 => fun '(a, b, c, d, e, f) => listed [text_of t1 a; text_of t2 b; text_of t3 c; text_of t4 d; text_of t5 e; text_of t6 f]
  end.
Definition set_text (ss : list str) : str := lit "{ " ++ join (lit ", ") ss ++ lit " }".
Definition entry_text (tk tv : ty) (e : val tk * val tv) : str := text_of tk (fst e) ++ lit "->" ++ text_of tv (snd e).

(** What is sent to a stream has this text: it is what unbuffer returns when it is sent to a buffer. *)
Definition writes_text (is : list item) (s : str) : Prop :=
  forall fs os0 a st h l, arun os0 (astart fs) = Some a -> orun os0 (ostart fs) = Ok st -> astack a h = Some l ->
  exists st' k, orun (OBuffer h :: map (OPut h) is ++ [OUnbuffer h]) st = Ok st' /\ outs st' = outs st ++ [k] /\ nth_error (strs st') k = Some s.

(** Strings that do not look like the notation: no comma, space, >, ], or NUL *)
Definition clear_char (c : ascii) : Prop := ~ In c ["," ; " "; ">"; "]"; "000"]%char.
Fixpoint clear (t : ty) : val t -> Prop :=
  match t with
  | TInt | TBool => fun _ => True
  | TChar => clear_char
  | TString => Forall clear_char
  | TArray t | TList t => Forall (clear t)
  | TPair t1 t2 => fun '(a, b) => clear t1 a /\ clear t2 b
  | TTriple t1 t2 t3 => fun '(a, b, c) => clear t1 a /\ clear t2 b /\ clear t3 c
  | TQuartet t1 t2 t3 t4 => fun '(a, b, c, d) => clear t1 a /\ clear t2 b /\ clear t3 c /\ clear t4 d
  | TQuintuple t1 t2 t3 t4 t5 => fun '(a, b, c, d, e) => clear t1 a /\ clear t2 b /\ clear t3 c /\ clear t4 d /\ clear t5 e
  | TSextuple t1 t2 t3 t4 t5 t6 => fun '(a, b, c, d, e, f) => clear t1 a /\ clear t2 b /\ clear t3 c /\ clear t4 d /\ clear t5 e /\ clear t6 f
  end.
(** The operator sends something to the stream, and it has this text. *)
Definition prints (r : res (list item)) (s : str) : Prop := exists is, r = Ok is /\ writes_text is s.
