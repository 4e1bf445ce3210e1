(** Common ground of the model: outcomes, strings, characters, checked indexing.
    No part of /repo is modelled here except the representation choices stated below. *)
From Coq Require Export String Ascii List Arith ZArith NArith Lia Bool Permutation.
From Coq Require Export ZifyBool ZifyNat ZifyN.
Export ListNotations.
Global Open Scope list_scope.
(** Keep integer arithmetic folded under [simpl]. *)
Global Arguments Z.add : simpl never.
Global Arguments Z.sub : simpl never.
Global Arguments Z.mul : simpl never.
Global Arguments Z.opp : simpl never.
Global Arguments Z.pow : simpl never.
Global Arguments Z.div : simpl never.
Global Arguments Z.modulo : simpl never.
Ltac Zify.zify_post_hook ::= Z.div_mod_to_equations.

(** Outcome of running a piece of C++ code.
    [UB]    : undefined behaviour was reached (out-of-bounds access, signed overflow, ...);
    [Throw] : an exception was thrown (ASSERT / TM_FAILED in Kernel/Abstractions/basic.hpp);
    [Fuel]  : the model's fuel ran out (a loop that may not terminate). *)
Inductive res (A : Type) : Type :=
| Ok (a : A)
| UB
| Throw
| Fuel.
Arguments Ok {A} a.
Arguments UB {A}.
Arguments Throw {A}.
Arguments Fuel {A}.

Definition bind {A B} (m : res A) (k : A -> res B) : res B :=
  match m with Ok a => k a | UB => UB | Throw => Throw | Fuel => Fuel end.
Notation "'let*' x := m 'in' k" := (bind m (fun x => k))
  (at level 200, x pattern, m at level 100, k at level 200, right associativity).

(** Strings are byte sequences (class string, Kernel/Types/string.hpp:28-66);
    the buffer itself is modelled in Model/StringBuf.v. *)
Definition str := list ascii.
Definition lit (s : string) : str := list_ascii_of_string s.

(** Unsigned and signed value of a byte, and conversion of an int to char (mod 256). *)
Definition code (c : ascii) : Z := Z.of_N (N_of_ascii c).
Definition schar (c : ascii) : Z := (if code c <? 128 then code c else code c - 256)%Z.
Definition chr (z : Z) : ascii := ascii_of_N (Z.to_N (z mod 256)).

(** Checked indexing: reading outside [0, length) is undefined behaviour. *)
Definition get {A} (s : list A) (i : nat) : res A :=
  match nth_error s i with Some c => Ok c | None => UB end.
Definition getZ {A} (s : list A) (i : Z) : res A :=
  if (i <? 0)%Z then UB else get s (Z.to_nat i).

(** Substring s (i, j) with 0 <= i <= j <= N(s); the clamping of the general case is
    modelled in Model/Str.v. *)
Definition slice {A} (s : list A) (i j : nat) : list A := firstn (j - i) (skipn i s).

Definition ceqb (a b : ascii) : bool := Ascii.eqb a b.
Fixpoint seqb (a b : str) : bool :=
  match a, b with
  | [], [] => true
  | x :: a', y :: b' => ceqb x y && seqb a' b'
  | _, _ => false
  end.

(* ------------------------------------------------------------------ *)
(** Elementary facts (used by the proofs only). *)

Lemma bind_ok {A B} (m : res A) (k : A -> res B) b :
  bind m k = Ok b -> exists a, m = Ok a /\ k a = Ok b.
Proof. destruct m; simpl; intros H; try discriminate. eauto. Qed.

Lemma ceqb_eq a b : ceqb a b = true <-> a = b.
Proof. apply Ascii.eqb_eq. Qed.
Lemma ceqb_neq a b : ceqb a b = false <-> a <> b.
Proof. apply Ascii.eqb_neq. Qed.
Lemma ceqb_refl a : ceqb a a = true.
Proof. apply Ascii.eqb_refl. Qed.

Lemma seqb_eq a : forall b, seqb a b = true <-> a = b.
Proof.
  induction a as [|x a IH]; intros [|y b]; simpl; split; intros H; try easy.
  - apply andb_true_iff in H as [H1 H2]. apply ceqb_eq in H1. apply IH in H2. congruence.
  - injection H as -> ->. rewrite ceqb_refl. simpl. now apply IH.
Qed.
Lemma seqb_refl a : seqb a a = true.
Proof. now apply seqb_eq. Qed.
Lemma seqb_neq a b : seqb a b = false <-> a <> b.
Proof.
  rewrite <- seqb_eq. destruct (seqb a b); split; congruence.
Qed.

Definition all_ascii : list ascii := map ascii_of_nat (seq 0 256).
Lemma all_ascii_complete c : In c all_ascii.
Proof.
  unfold all_ascii. rewrite <- (ascii_nat_embedding c). apply in_map. apply in_seq.
  pose proof (nat_ascii_bounded c). lia.
Qed.
(** A decidable property of bytes holds for all bytes as soon as it holds for the 256 of them. *)
Lemma byte_sweep (P : ascii -> bool) : forallb P all_ascii = true -> forall c, P c = true.
Proof. intros H c. rewrite forallb_forall in H. apply H, all_ascii_complete. Qed.
Lemma byte_sweep2 (P : ascii -> ascii -> bool) :
  forallb (fun a => forallb (P a) all_ascii) all_ascii = true -> forall a b, P a b = true.
Proof.
  intros H a b. rewrite forallb_forall in H. specialize (H a (all_ascii_complete a)).
  rewrite forallb_forall in H. apply H, all_ascii_complete.
Qed.

Lemma code_range c : (0 <= code c < 256)%Z.
Proof.
  unfold code. pose proof (N_ascii_bounded c) as H. lia.
Qed.
Lemma chr_code c : chr (code c) = c.
Proof.
  unfold chr. pose proof (code_range c). rewrite Z.mod_small by lia.
  unfold code. rewrite N2Z.id. apply ascii_N_embedding.
Qed.
Lemma code_chr z : (code (chr z) = z mod 256)%Z.
Proof.
  unfold chr, code. rewrite N_ascii_embedding.
  - rewrite Z2N.id; [reflexivity|]. apply Z.mod_pos_bound; lia.
  - pose proof (Z.mod_pos_bound z 256). lia.
Qed.
Lemma chr_inj_range a b : (0 <= a < 256)%Z -> (0 <= b < 256)%Z -> chr a = chr b -> a = b.
Proof.
  intros Ha Hb H. apply (f_equal code) in H. rewrite !code_chr in H.
  rewrite !Z.mod_small in H; lia.
Qed.
Lemma code_inj a b : code a = code b -> a = b.
Proof. intros H. rewrite <- (chr_code a), <- (chr_code b). now rewrite H. Qed.
Lemma schar_inj a b : schar a = schar b -> a = b.
Proof.
  intros H. apply code_inj. pose proof (code_range a). pose proof (code_range b).
  unfold schar in H. destruct (code a <? 128)%Z eqn:E1, (code b <? 128)%Z eqn:E2; lia.
Qed.
Lemma chr_schar c : chr (schar c) = c.
Proof.
  apply code_inj. rewrite code_chr. pose proof (code_range c). unfold schar.
  destruct (code c <? 128)%Z eqn:E; lia.
Qed.

Lemma get_ok {A} (s : list A) i x : nth_error s i = Some x -> get s i = Ok x.
Proof. unfold get. now intros ->. Qed.
Lemma get_inv {A} (s : list A) i x : get s i = Ok x -> nth_error s i = Some x.
Proof. unfold get. destruct (nth_error s i); congruence. Qed.
Lemma get_lt {A} (s : list A) i : i < length s -> exists x, get s i = Ok x /\ nth_error s i = Some x.
Proof.
  intros H. unfold get. destruct (nth_error s i) eqn:E; [eauto|].
  apply nth_error_None in E. lia.
Qed.
Lemma get_app_mid {A} (p : list A) x q : get (p ++ x :: q) (length p) = Ok x.
Proof. unfold get. rewrite nth_error_app2, Nat.sub_diag by lia. reflexivity. Qed.
