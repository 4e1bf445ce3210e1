(** Proofs about opaque boxes. *)
From Coq Require Import Eqdep_dec.
From Verif Require Import Base Model.Int Model.OStream Model.Blackbox Spec.Blackbox.
Local Open Scope Z_scope.

Lemma init_spec ts : NoDup ts -> forall c id, - 2147483648 <= c - Z.of_nat (length ts) -> c <= 0 -> (forall t, In t ts -> id t = 0) ->
  (forall t, id t = 0 \/ c <= id t < 0) -> (forall t t', id t <> 0 -> id t = id t' -> t = t') ->
  exists id', init_types ts c id = Ok id' /\ (forall t, In t ts -> id' t <> 0) /\ (forall t, id t <> 0 -> id' t <> 0)
    /\ (forall t, ~ In t ts -> id' t = id t)
    /\ (forall t, id' t <> 0 -> id' t < 0) /\ (forall t t', id' t <> 0 -> id' t = id' t' -> t = t').
Proof.
  induction 1 as [|t ts N _ IH]; intros c id L C0 Z0 R I; cbn [init_types].
  - exists id. split; [reflexivity|]. split; [intros ? []|]. split; [auto|]. split; [auto|]. split; [|assumption].
    intros t H. destruct (R t); lia.
  - cbn [length] in L. unfold new_type_identifier, chk32. replace (int32b (c - 1)) with true by (symmetry; unfold int32b, int_min, int_max; lia).
    cbn [bind]. set (id1 := fun x => if (x =? t)%nat then c - 1 else id x).
    destruct (IH (c - 1) id1) as (id' & E & P1 & P2 & P3 & P4 & P5).
    + lia.
    + lia.
    + intros x Hx. unfold id1. destruct (Nat.eqb_spec x t) as [->|]; [contradiction|]. apply Z0. now right.
    + intros x. unfold id1. destruct (Nat.eqb_spec x t); [lia|]. destruct (R x); lia.
    + intros x y. unfold id1. pose proof (R x). pose proof (R y). destruct (Nat.eqb_spec x t), (Nat.eqb_spec y t); subst; auto; lia.
    + exists id'. split; [exact E|]. split; [|split; [|split; [|split; assumption]]].
      * intros x [<-|Hx]; [|auto]. apply P2. unfold id1. rewrite Nat.eqb_refl. lia.
      * intros x Hx. apply P2. unfold id1. destruct (Nat.eqb_spec x t); [lia|assumption].
      * intros x Hx. cbn in Hx. rewrite P3 by tauto. unfold id1. destruct (Nat.eqb_spec x t) as [->|]; [tauto|reflexivity].
Qed.
Lemma ids_ok ts : NoDup ts -> Z.of_nat (length ts) <= 2147483648 -> exists id, ids ts = Ok id
  /\ (forall t, In t ts -> id t < 0) /\ forall t t', In t ts -> id t = id t' -> t = t'.
Proof.
  intros N L. destruct (init_spec ts N 0 (fun _ => 0)) as (id & E & P1 & _ & _ & P4 & P5); [lia|lia|auto|auto|lia|].
  exists id. split; [exact E|]. split; [auto|]. intros t t' H. apply P5. auto.
Qed.

Section Box.
Variable V : nat -> Type.
Variable eqv : forall t, V t -> V t -> bool.
Hypothesis eqv_ok : forall t v w, eqv t v w = true <-> v = w.
Variable id : nat -> Z.
Lemma data_same t v : data_at V t (existT _ t v) = Ok v.
Proof.
  cbn. destruct (Nat.eq_dec t t) as [e|n]; [|now destruct n]. now rewrite (UIP_dec Nat.eq_dec e eq_refl).
Qed.
Section Init.
Variable ts : list nat.
Hypothesis neg : forall t, In t ts -> id t < 0.
Hypothesis inj : forall t t', In t ts -> id t = id t' -> t = t'.
Lemma open_spec t t' v : In t ts -> In t' ts -> (t = t' -> exists v' : V t, existT V t v' = existT V t' v /\ open_box V id t (close_box V t' v) = Ok v')
  /\ (t <> t' -> open_box V id t (close_box V t' v) = Throw).
Proof.
  intros I I'. unfold open_box, type_box, close_box, get_type. cbn [projT1]. split.
  - intros ->. exists v. split; [reflexivity|]. rewrite Z.eqb_refl. cbn [negb]. apply data_same.
  - intros N. destruct (Z.eqb_spec (id t') (id t)) as [E|E]; [|reflexivity]. destruct N. symmetry. now apply inj.
Qed.
Lemma open_nil t : In t ts -> open_box V id t None = Throw.
Proof. intros I. unfold open_box, type_box. specialize (neg t I). destruct (Z.eqb_spec 0 (id t)); [lia|reflexivity]. Qed.
Lemma eq_spec b1 b2 : known V ts b1 -> known V ts b2 -> exists e, box_eq V eqv id b1 b2 = Ok e /\ box_ne V eqv id b1 b2 = Ok (negb e) /\ (e = true <-> b1 = b2).
Proof.
  intros K1 K2. destruct b1 as [(t & v)|]; cbn [box_eq box_ne].
  - destruct b2 as [(t' & v')|]; cbn [equal].
    + unfold get_type. cbn [projT1 projT2]. destruct (Z.eqb_spec (id t') (id t)) as [E|E].
      * assert (t' = t) as -> by (apply inj; [exact K2|assumption]). rewrite data_same. cbn [bind]. exists (eqv t v' v). split; [reflexivity|]. split; [reflexivity|].
        rewrite eqv_ok. split; [now intros ->|]. intros H. injection H as H. now apply (inj_pair2_eq_dec nat Nat.eq_dec) in H.
      * exists false. cbn [bind]. split; [reflexivity|]. split; [reflexivity|]. split; [discriminate|]. intros H. injection H as H _. subst. now destruct E.
    + exists false. cbn [bind]. split; [reflexivity|]. split; [reflexivity|]. split; discriminate.
  - exists (is_nil V b2). split; [reflexivity|]. split; [reflexivity|]. destruct b2; cbn; split; congruence.
Qed.
Lemma type_spec b1 b2 : known V ts b1 -> known V ts b2 -> (type_box V id b1 = type_box V id b2 <-> type_of b1 = type_of b2).
Proof.
  intros K1 K2. destruct b1 as [(t & v)|], b2 as [(t' & v')|]; cbn in *.
  - split; [|now injection 1 as ->]. intros E. f_equal. now apply inj.
  - specialize (neg t K1). split; [unfold get_type; cbn; lia|discriminate].
  - specialize (neg t' K2). split; [unfold get_type; cbn; lia|discriminate].
  - tauto.
Qed.
End Init.
End Box.

Lemma boxes V (eqv : forall t, V t -> V t -> bool) : (forall t v w, eqv t v w = true <-> v = w) ->
  forall ts, NoDup ts -> Z.of_nat (length ts) <= 2147483648 -> exists id, ids ts = Ok id
  /\ (forall t v, In t ts -> open_box V id t (close_box V t v) = Ok v)
  /\ (forall t t' v, In t ts -> In t' ts -> t <> t' -> open_box V id t (close_box V t' v) = Throw)
  /\ (forall t, In t ts -> open_box V id t None = Throw)
  /\ (forall b1 b2, known V ts b1 -> known V ts b2 -> exists e, box_eq V eqv id b1 b2 = Ok e /\ box_ne V eqv id b1 b2 = Ok (negb e) /\ (e = true <-> b1 = b2))
  /\ (forall b1 b2, known V ts b1 -> known V ts b2 ->
       (type_box V id b1 = type_box V id b2 <-> type_of b1 = type_of b2)).
Proof.
  intros Eq ts N L. destruct (ids_ok ts N L) as (id & E & P1 & P2). exists id. split; [exact E|].
  split. { intros t v I. unfold open_box, type_box, close_box, get_type. cbn [projT1]. rewrite Z.eqb_refl. apply data_same. }
  split; [intros t t' v I I' D; eapply (open_spec V); eassumption|]. split; [intros t I; eapply open_nil; eassumption|].
  split; [intros b1 b2; eapply eq_spec; eassumption|intros b1 b2; eapply type_spec; eassumption].
Qed.
Lemma early_open V t t' v : t <> t' -> exists id, ids [] = Ok id /\ open_box V id t None = UB /\ open_box V id t (close_box V t' v) = UB.
Proof.
  intros N. exists (fun _ => 0). split; [reflexivity|]. split; [reflexivity|].
  unfold open_box, type_box, close_box, get_type, data_at. cbn. destruct (Nat.eq_dec t' t) as [->|]; [now destruct N|reflexivity].
Qed.
