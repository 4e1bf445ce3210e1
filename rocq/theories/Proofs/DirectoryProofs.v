From Verif Require Import Base Model.Int Model.Str Model.Search Model.Url Model.File Model.Directory Spec.Search Spec.Url Spec.UrlAlt Spec.UrlText Spec.File Spec.Directory
  Proofs.UrlProofs Proofs.UrlAltProofs Proofs.UrlTextProofs Proofs.UrlPrintProofs Proofs.FileProofs.
Local Open Scope Z_scope.

(** ** Trees *)
Fixpoint tree_ind' (P : tree -> Prop) (HF : forall b, P (TFile b)) (HD : forall l, (forall n c, In (n, c) l -> P c) -> P (TDir l)) (t : tree) : P t :=
  match t with
  | TFile b => HF b
  | TDir l => HD l ((fix each (l : list (str * tree)) : forall n c, In (n, c) l -> P c :=
      match l with
      | [] => fun n c I => match I with end
      | (m, d) :: r => fun n c I => match I with
          | or_introl E => match E in _ = e return P (snd e) with eq_refl => tree_ind' P HF HD d end
          | or_intror J => each r n c J
          end
      end) l)
  end.
Definition seen (t : tree) (q : list str) : option thing := match get t q with Some c => Some (kind c) | None => None end.
Lemma seqb_refl' s : seqb s s = true.
Proof. apply seqb_eq. reflexivity. Qed.
Lemma seqb_neq s t : seqb s t = false <-> s <> t.
Proof. destruct (seqb s t) eqn:E; [apply seqb_eq in E; split; congruence|]. split; [|auto]. intros _ ->. rewrite seqb_refl' in E. discriminate. Qed.
Lemma find_in n l c : find n l = Some c -> In (n, c) l.
Proof. induction l as [| (m, d) l IH]; cbn; [discriminate|]. destruct (seqb n m) eqn:E; [apply seqb_eq in E; subst; intros [= ->]; auto | auto]. Qed.
Lemma find_none n l : find n l = None <-> ~ In n (map fst l).
Proof.
  induction l as [| (m, d) l IH]; cbn; [tauto|]. destruct (seqb n m) eqn:E.
  - apply seqb_eq in E. subst. split; [discriminate | tauto].
  - apply seqb_neq in E. rewrite IH. split; [intros N [J | J]; congruence || tauto | tauto].
Qed.
Lemma find_unique n l c : NoDup (map fst l) -> In (n, c) l -> find n l = Some c.
Proof.
  induction l as [| (m, d) l IH]; cbn; intros N I; [destruct I|]. apply NoDup_cons_iff in N as [N1 N2]. destruct I as [[= -> ->] | I]; [rewrite seqb_refl'; reflexivity|].
  destruct (seqb n m) eqn:E; [apply seqb_eq in E; subst; exfalso; apply N1; apply in_map_iff; exists (m, c); auto | auto].
Qed.
Lemma find_change n c l m : find m (change n c l) = if seqb m n then match find n l with Some _ => Some c | None => None end else find m l.
Proof.
  induction l as [| (k, d) l IH]; cbn; [destruct (seqb m n); reflexivity|]. destruct (seqb n k) eqn:E; cbn.
  - apply seqb_eq in E. subst k. destruct (seqb m n); reflexivity.
  - rewrite IH. destruct (seqb m k) eqn:F; [|reflexivity]. apply seqb_eq in F. subst m. destruct (seqb k n) eqn:G; [|reflexivity]. apply seqb_eq in G. subst k. rewrite seqb_refl' in E. discriminate.
Qed.
Lemma find_drop n l m : find m (drop n l) = if seqb m n then None else find m l.
Proof.
  induction l as [| (k, d) l IH]; cbn; [destruct (seqb m n); reflexivity|]. destruct (seqb n k) eqn:E; cbn.
  - apply seqb_eq in E. subst k. rewrite IH. destruct (seqb m n); reflexivity.
  - rewrite IH. destruct (seqb m k) eqn:F; [|reflexivity]. apply seqb_eq in F. subst m. destruct (seqb k n) eqn:G; [|reflexivity]. apply seqb_eq in G. subst k. rewrite seqb_refl' in E. discriminate.
Qed.
Lemma find_add n c l m : find n l = None -> find m (l ++ [(n, c)]) = if seqb m n then Some c else find m l.
Proof.
  induction l as [| (k, d) l IH]; cbn; [destruct (seqb m n); reflexivity|]. destruct (seqb n k) eqn:E; [discriminate|]. intros N. rewrite (IH N).
  destruct (seqb m k) eqn:F; [|reflexivity]. apply seqb_eq in F. subst m. destruct (seqb k n) eqn:G; [|reflexivity]. apply seqb_eq in G. subst k. rewrite seqb_refl' in E. discriminate.
Qed.
Lemma change_names n c l : map fst (change n c l) = map fst l.
Proof. induction l as [| (k, d) l IH]; cbn; [reflexivity|]. destruct (seqb n k); cbn; [reflexivity | rewrite IH; reflexivity]. Qed.
Lemma change_in n c l m d : In (m, d) (change n c l) -> d = c \/ In (m, d) l.
Proof. induction l as [| (k, e) l IH]; cbn; [tauto|]. destruct (seqb n k); cbn; intros [E | I]; [injection E as _ <-; auto | auto | auto | destruct (IH I); auto]. Qed.
Lemma drop_in n l m d : In (m, d) (drop n l) -> In (m, d) l.
Proof. induction l as [| (k, e) l IH]; cbn; [tauto|]. destruct (seqb n k); cbn; [auto | intros [E | I]; auto]. Qed.
Lemma drop_nodup n l : NoDup (map fst l) -> NoDup (map fst (drop n l)).
Proof.
  induction l as [| (k, e) l IH]; cbn; [auto|]. intros N. apply NoDup_cons_iff in N as [N1 N2]. destruct (seqb n k); cbn; [auto|]. constructor; [|auto].
  intros I. apply N1. apply in_map_iff in I as ((a, b) & E & I). cbn in E. subst a. apply drop_in in I. apply in_map_iff. exists (k, b). auto.
Qed.
Lemma NoDup_snoc {A} (l : list A) x : NoDup l -> ~ In x l -> NoDup (l ++ [x]).
Proof. induction l as [| y l IH]; cbn; intros N I; [constructor; auto; constructor|]. apply NoDup_cons_iff in N as [N1 N2]. constructor; [rewrite in_app_iff; cbn; intros [J | [J | []]]; [tauto | subst; tauto] | apply IH; tauto]. Qed.
Lemma wf_find l n c : wf (TDir l) -> find n l = Some c -> wf c.
Proof. intros W F. inversion W as [| ? ? H]; subst. exact (H n c (find_in _ _ _ F)). Qed.
Lemma wf_change l n c : wf (TDir l) -> wf c -> wf (TDir (change n c l)).
Proof. intros W C. inversion W as [| ? N H]; subst. constructor; [rewrite change_names; exact N|]. intros m d I. apply change_in in I as [-> | I]; [exact C | exact (H m d I)]. Qed.

(** ** Making *)
Lemma above_nil p : at_or_above [] p.
Proof. exists p. reflexivity. Qed.
Lemma above_cons n q p : at_or_above q p -> at_or_above (n :: q) (n :: p).
Proof. intros (r & ->). exists r. reflexivity. Qed.
Lemma above_inv n q m p : at_or_above (n :: q) (m :: p) -> n = m /\ at_or_above q p.
Proof. intros (r & E). injection E as -> ->. split; [reflexivity | exists r; reflexivity]. Qed.
Lemma make_kind may p : forall at_ t, kind (make may at_ p t) = kind t.
Proof. destruct p as [| n p]; intros at_ t; cbn; [reflexivity|]. destruct t as [b | l]; [reflexivity|]. destruct (find n l); [reflexivity|]. destruct (may _); reflexivity. Qed.
Lemma seen_nil t : seen t [] = Some (kind t).
Proof. reflexivity. Qed.
Lemma seen_dir l n q : seen (TDir l) (n :: q) = match find n l with Some c => seen c q | None => None end.
Proof. unfold seen. cbn. destruct (find n l); reflexivity. Qed.
Lemma seen_empty q : q <> [] -> seen (TDir []) q = None.
Proof. destruct q; [congruence | reflexivity]. Qed.
Lemma make_wf may p : forall at_ t, wf t -> wf (make may at_ p t).
Proof.
  induction p as [| n p IH]; intros at_ t W; cbn; [exact W|]. destruct t as [b | l]; [exact W|]. destruct (find n l) as [c |] eqn:F.
  - apply wf_change; [exact W|]. apply IH. exact (wf_find l n c W F).
  - destruct (may _); [|exact W]. inversion W as [| ? N H]; subst. constructor.
    + rewrite map_app. apply NoDup_snoc; [exact N|]. apply find_none. exact F.
    + intros m d I. apply in_app_or in I as [I | [[= -> <-] | []]]; [exact (H m d I)|]. apply IH. constructor; [constructor | intros ? ? []].
Qed.
Lemma make_any may p : forall at_ t q, seen (make may at_ p t) q = seen t q \/ (at_or_above q p /\ seen t q = None /\ seen (make may at_ p t) q = Some ADir).
Proof.
  induction p as [| n p IH]; intros at_ t q; cbn [make]; [auto|]. destruct t as [b | l]; [auto|]. destruct (find n l) as [c |] eqn:F.
  - destruct q as [| m q]; [auto|]. rewrite !seen_dir, find_change. destruct (seqb m n) eqn:E; [|auto]. apply seqb_eq in E. subst m. rewrite F.
    destruct (IH (at_ ++ [n]) c q) as [G | (G1 & G2 & G3)]; [auto|]. right. split; [apply above_cons; exact G1 | auto].
  - destruct (may _); [|auto]. destruct q as [| m q]; [auto|]. rewrite !seen_dir, find_add by exact F. destruct (seqb m n) eqn:E; [|auto]. apply seqb_eq in E. subst m. rewrite F.
    destruct (IH (at_ ++ [n]) (TDir []) q) as [G | (G1 & G2 & G3)].
    + destruct q as [| k q]; [|rewrite G; left; apply seen_empty; discriminate]. right. split; [apply above_cons, above_nil|]. split; [reflexivity | rewrite G; reflexivity].
    + right. split; [apply above_cons; exact G1|]. split; [reflexivity | exact G3].
Qed.
Lemma make_all may p : (forall q, may q = true) -> forall at_ t, (forall q b, at_or_above q p -> seen t q <> Some (AFile b)) -> forall q, at_or_above q p -> seen (make may at_ p t) q = Some ADir.
Proof.
  intros M. induction p as [| n p IH]; intros at_ t H q Q.
  - destruct q; [|destruct Q; discriminate]. cbn [make]. destruct t as [b | l]; [exfalso; apply (H [] b Q); reflexivity | reflexivity].
  - cbn [make]. destruct t as [b | l]; [exfalso; apply (H [] b (above_nil _)); reflexivity|]. rewrite M. destruct (find n l) as [c |] eqn:F.
    + destruct q as [| m q]; [reflexivity|]. apply above_inv in Q as [-> Q]. rewrite seen_dir, find_change, seqb_refl', F. apply IH; [|exact Q].
      intros q' b Q'. specialize (H (n :: q') b (above_cons n q' p Q')). rewrite seen_dir, F in H. exact H.
    + destruct q as [| m q]; [reflexivity|]. apply above_inv in Q as [-> Q]. rewrite seen_dir, find_add, seqb_refl' by exact F. apply IH; [|exact Q].
      intros q' b _. destruct q'; discriminate.
Qed.
Lemma seen_above t : forall q, seen t q = Some ADir -> forall p, at_or_above p q -> seen t p = Some ADir.
Proof.
  induction t as [b | l IH] using tree_ind'; intros q S p P.
  - destruct q; [discriminate|]. discriminate.
  - destruct p as [| n p]; [reflexivity|]. destruct q as [| m q]; [destruct P; discriminate|]. apply above_inv in P as [-> P]. rewrite seen_dir in *. destruct (find m l) as [c |] eqn:F; [|discriminate].
    exact (IH m c (find_in _ _ _ F) q S p P).
Qed.

(** ** Removing *)
Definition each (keeps : list str -> bool) (at_ : list str) : list (str * tree) -> list (str * tree) :=
  fix each (l : list (str * tree)) : list (str * tree) :=
    match l with
    | [] => []
    | (n, c) :: r => match prune keeps (at_ ++ [n]) c with Some d => (n, d) :: each r | None => each r end
    end.
Lemma prune_dir keeps at_ l : prune keeps at_ (TDir l) = match each keeps at_ l with [] => if keeps at_ then Some (TDir []) else None | _ => Some (TDir (each keeps at_ l)) end.
Proof. reflexivity. Qed.
Lemma each_in keeps at_ l n d : In (n, d) (each keeps at_ l) -> exists c, In (n, c) l /\ prune keeps (at_ ++ [n]) c = Some d.
Proof.
  induction l as [| (m, c) l IH]; cbn; [tauto|]. destruct (prune keeps (at_ ++ [m]) c) as [e |] eqn:P; intros I.
  - destruct I as [[= -> ->] | I]; [eauto|]. destruct (IH I) as (c' & J & Q). eauto.
  - destruct (IH I) as (c' & J & Q). eauto.
Qed.
Lemma each_nodup keeps at_ l : NoDup (map fst l) -> NoDup (map fst (each keeps at_ l)).
Proof.
  induction l as [| (m, c) l IH]; cbn; [auto|]. intros N. apply NoDup_cons_iff in N as [N1 N2]. destruct (prune keeps (at_ ++ [m]) c); [|auto]. cbn. constructor; [|auto].
  intros I. apply N1. apply in_map_iff in I as ((a, b) & E & I). cbn in E. subst a. apply each_in in I as (c' & I & _). apply in_map_iff. exists (m, c'). auto.
Qed.
Lemma each_find keeps at_ l n : NoDup (map fst l) -> find n (each keeps at_ l) = match find n l with Some c => prune keeps (at_ ++ [n]) c | None => None end.
Proof.
  induction l as [| (m, c) l IH]; cbn; [auto|]. intros N. apply NoDup_cons_iff in N as [N1 N2]. specialize (IH N2). destruct (seqb n m) eqn:E.
  - apply seqb_eq in E. subst m. apply find_none in N1. rewrite N1 in IH. destruct (prune keeps (at_ ++ [n]) c); cbn; [rewrite seqb_refl'; reflexivity | exact IH].
  - destruct (prune keeps (at_ ++ [m]) c); cbn; [rewrite E; exact IH | exact IH].
Qed.
Lemma prune_any keeps t : wf t -> forall at_ t', prune keeps at_ t = Some t' -> wf t' /\ kind t' = kind t /\ forall q, seen t' q = seen t q \/ seen t' q = None.
Proof.
  induction t as [b | l IH] using tree_ind'; intros W at_ t' P.
  - cbn in P. destruct (keeps at_); [|discriminate]. injection P as <-. auto.
  - rewrite prune_dir in P. inversion W as [| ? N H]; subst.
    assert (E : t' = TDir (each keeps at_ l)). { destruct (each keeps at_ l); [destruct (keeps at_); [|discriminate]|]; congruence. }
    subst t'. clear P. split; [|split; [reflexivity|]].
    + constructor; [apply each_nodup; exact N|]. intros n d I. apply each_in in I as (c & I & P). exact (proj1 (IH n c I (H n c I) _ d P)).
    + intros [| n q]; [auto|]. rewrite !seen_dir, each_find by exact N. destruct (find n l) as [c |] eqn:F; [|auto]. apply find_in in F.
      destruct (prune keeps (at_ ++ [n]) c) as [d |] eqn:P; [|auto]. apply (IH n c F (H n c F) _ d P).
Qed.
Lemma prune_all keeps t : (forall q, keeps q = false) -> forall at_, prune keeps at_ t = None.
Proof.
  intros K. induction t as [b | l IH] using tree_ind'; intros at_; [cbn; rewrite K; reflexivity|]. rewrite prune_dir.
  assert (E : each keeps at_ l = []); [|rewrite E, K; reflexivity]. induction l as [| (m, c) l IHl]; cbn; [reflexivity|]. rewrite (IH m c (or_introl eq_refl)). apply IHl. intros n d I. apply (IH n d). right. exact I.
Qed.
Lemma take_kind keeps p at_ t : kind (take keeps at_ p t) = kind t.
Proof. destruct p as [| n p]; [reflexivity|]. destruct t as [b | l]; [reflexivity|]. cbn. destruct (find n l); [|reflexivity]. destruct p; [|reflexivity]. destruct (prune _ _ _); reflexivity. Qed.
Lemma take_any keeps p : forall at_ t, wf t -> wf (take keeps at_ p t) /\ forall q, seen (take keeps at_ p t) q = seen t q \/ (at_or_above p q /\ seen (take keeps at_ p t) q = None).
Proof.
  induction p as [| n p IH]; intros at_ t W; [cbn; auto|]. destruct t as [b | l]; [cbn; auto|]. cbn [take]. destruct (find n l) as [c |] eqn:F; [|auto].
  assert (WC := wf_find l n c W F). destruct p as [| n2 p].
  - destruct (prune keeps (at_ ++ [n]) c) as [d |] eqn:P.
    + destruct (prune_any keeps c WC _ d P) as (W' & _ & S). split; [apply wf_change; assumption|]. intros [| m q]; [auto|]. rewrite !seen_dir, find_change.
      destruct (seqb m n) eqn:E; [|auto]. apply seqb_eq in E. subst m. rewrite F. destruct (S q) as [-> | ->]; [auto|]. right. split; [apply above_cons, above_nil | reflexivity].
    + split. { inversion W as [| ? N H]; subst. constructor; [apply drop_nodup; exact N|]. intros m d I. apply drop_in in I. exact (H m d I). }
      intros [| m q]; [auto|]. rewrite !seen_dir, find_drop. destruct (seqb m n) eqn:E; [|auto]. apply seqb_eq in E. subst m. right. split; [apply above_cons, above_nil | reflexivity].
  - destruct (IH (at_ ++ [n]) c WC) as (W' & S). split; [apply wf_change; assumption|]. intros [| m q]; [auto|]. rewrite !seen_dir, find_change.
    destruct (seqb m n) eqn:E; [|auto]. apply seqb_eq in E. subst m. rewrite F. destruct (S q) as [G | (G1 & G2)]; [auto|]. right. split; [apply above_cons; exact G1 | exact G2].
Qed.
Lemma take_all keeps p : (forall q, keeps q = false) -> p <> [] -> forall at_ t q, at_or_above p q -> seen (take keeps at_ p t) q = None.
Proof.
  intros K. induction p as [| n p IH]; intros NE at_ t q Q; [congruence|]. destruct q as [| m q]; [destruct Q; discriminate|]. apply above_inv in Q as [<- Q].
  destruct t as [b | l]; [reflexivity|]. cbn [take]. destruct (find n l) as [c |] eqn:F; [|rewrite seen_dir, F; reflexivity]. destruct p as [| n2 p].
  - rewrite prune_all by exact K. rewrite seen_dir, find_drop, seqb_refl'. reflexivity.
  - rewrite seen_dir, find_change, seqb_refl', F. apply IH; [discriminate | exact Q].
Qed.

(** ** Urls and places *)
Lemma fields_split s : fields s = split "/" s.
Proof. induction s as [| x s IH]; cbn; [reflexivity|]. rewrite IH. reflexivity. Qed.
Lemma plain_slash t : plain t -> ~ In "/"%char t.
Proof. intros P. apply P. Qed.
Lemma split_plain ts : ts <> [] -> Forall plain ts -> split "/" (Spec.Search.join (lit "/") ts) = ts.
Proof.
  induction ts as [| t [| t2 ts] IH]; intros N F; [congruence | |]; inversion F as [| ? ? P F']; subst.
  - apply split_free. apply plain_slash. exact P.
  - change (Spec.Search.join (lit "/") (t :: t2 :: ts)) with (t ++ "/"%char :: Spec.Search.join (lit "/") (t2 :: ts)). rewrite split_sep by (apply plain_slash; exact P). rewrite IH; [reflexivity | discriminate | exact F'].
Qed.
Lemma step_plain p t : plain t -> step p t = p ++ [t].
Proof.
  intros (_ & _ & _ & N & D & U & _). unfold step. destruct (seqb t []) eqn:E1; [apply seqb_eq in E1; contradiction|]. destruct (seqb t (lit ".")) eqn:E2; [apply seqb_eq in E2; contradiction|].
  destruct (seqb t (lit "..")) eqn:E3; [apply seqb_eq in E3; contradiction | reflexivity].
Qed.
Lemma steps_plain ts : Forall plain ts -> forall p, fold_left step ts p = p ++ ts.
Proof. intros F. induction F as [| t ts P F IH]; intros p; cbn; [rewrite app_nil_r; reflexivity|]. rewrite step_plain by exact P. rewrite IH, <- app_assoc. reflexivity. Qed.
Lemma join_head ts : ts <> [] -> Forall plain ts -> exists c s, Spec.Search.join (lit "/") ts = c :: s /\ ceqb c "/" = false.
Proof.
  intros N F. destruct F as [| t ts P F]; [congruence|]. destruct P as (S & _ & _ & NE & _). destruct t as [| c t]; [congruence|]. exists c.
  exists (match ts with [] => t | _ => t ++ "/"%char :: Spec.Search.join (lit "/") ts end). split; [destruct ts; reflexivity|].
  destruct (ceqb c "/") eqn:E; [|reflexivity]. apply ceqb_eq in E. subst. exfalso. apply S. left. reflexivity.
Qed.
Lemma resolve_relative w ts : ts <> [] -> Forall plain ts -> resolve w (Spec.Search.join (lit "/") ts) = cwd w ++ ts.
Proof.
  intros N F. destruct (join_head ts N F) as (c & s & E & S). unfold resolve. rewrite fields_split, split_plain by assumption. rewrite E, S. apply steps_plain. exact F.
Qed.
Lemma resolve_absolute w ts : ts <> [] -> Forall plain ts -> resolve w (lit "/" ++ Spec.Search.join (lit "/") ts) = ts.
Proof.
  intros N F. unfold resolve. rewrite fields_split. change (split "/" (lit "/" ++ Spec.Search.join (lit "/") ts)) with ([] :: split "/" (Spec.Search.join (lit "/") ts)).
  rewrite split_plain by assumption. cbn [lit app fold_left]. change (ceqb "/" "/") with true. cbn iota. change (step [] []) with (@nil str). apply (steps_plain ts F []).
Qed.
Lemma located_path w u ns : located w u ns -> is_local_and_single u = true /\ exists t, gives (fun f => as_local_path f u) t /\ resolve w (c_path t) = ns.
Proof.
  intros L. destruct L as [ts F | p c ts P F].
  - destruct ts as [| t ts]. { split; [reflexivity|]. exists (lit "."). split; [exists 0%nat; reflexivity|]. cbn [map path c_path lit]. unfold resolve. cbn. rewrite app_nil_r. reflexivity. }
    destruct (named_text (path (map Atom (t :: ts))) (Spec.Search.join (lit "/") (t :: ts))) as (LS & _ & _ & T & N); [constructor; [discriminate | exact F]|].
    split; [apply local_single_iff; exact LS|]. eexists. split; [exact T|]. rewrite N. apply resolve_relative; [discriminate | exact F].
  - destruct ts as [| t ts].
    + destruct P as [-> | ->]; (split; [reflexivity|]).
      * exists (lit "/"). split; [exists 0%nat; reflexivity | reflexivity].
      * exists (lit "/"). split; [exists 0%nat; reflexivity | reflexivity].
    + assert (NM : named (rooted (Root p c) (map Atom (t :: ts))) (lit "/" ++ Spec.Search.join (lit "/") (t :: ts))) by (destruct P as [-> | ->]; constructor; (discriminate || exact F)).
      destruct (named_text _ _ NM) as (LS & _ & _ & T & N). split; [apply local_single_iff; exact LS|]. eexists. split; [exact T|]. rewrite N. apply resolve_absolute; [discriminate | exact F].
Qed.

(** ** The operations *)
Lemma disk_eta w : Disk (top w) (cwd w) = w.
Proof. destruct w. reflexivity. Qed.
Lemma located_cwd w w' u ns : cwd w' = cwd w -> located w u ns -> located w' u ns.
Proof. intros E L. destruct L as [ts F | p c ts P F]; [rewrite <- E|]; constructor; assumption. Qed.
Lemma located_shape w u ns : located w u ns -> (exists p c, u = Root p c /\ ns = []) \/ (exists s, u = Atom s) \/ (exists a b, u = Concat a b).
Proof.
  intros L. destruct L as [ts F | p c ts P F].
  - destruct ts as [| t [| t2 ts]]; cbn; eauto.
  - destruct ts as [| t ts]; cbn; eauto.
Qed.
Lemma thing_seen w q : thing_at w q = seen (top w) q.
Proof. reflexivity. Qed.
Lemma mkdir_gives w u ns may : located w u ns -> gives (fun f => mkdir f may u w) (Disk (make may [] ns (top w)) (cwd w)).
Proof.
  intros L. destruct (located_path w u ns L) as (LS & t & T & R). destruct (located_shape w u ns L) as [(p & c & -> & ->) | S].
  - cbn. rewrite disk_eta. apply ev_const.
  - refine (ev_ext (fun f => let* p := as_local_path f u in Ok (Disk (make may [] (resolve w (c_path p)) (top w)) (cwd w))) _ _ _ _).
    + intros f. destruct S as [(s & ->) | (a & b & ->)]; cbn [mkdir]; rewrite LS; reflexivity.
    + refine (ev_bind _ _ _ _ T _). cbn beta. rewrite R. apply ev_const.
Qed.
Lemma rmdir_gives w u ns keeps : located w u ns -> gives (fun f => rmdir f keeps u w) (Disk (take keeps [] ns (top w)) (cwd w)).
Proof.
  intros L. destruct (located_path w u ns L) as (LS & t & T & R). destruct (located_shape w u ns L) as [(p & c & -> & ->) | S].
  - cbn. rewrite disk_eta. apply ev_const.
  - refine (ev_ext (fun f => let* p := as_local_path f u in Ok (Disk (take keeps [] (resolve w (c_path p)) (top w)) (cwd w))) _ _ _ _).
    + intros f. destruct S as [(s & ->) | (a & b & ->)]; cbn [rmdir]; rewrite LS; reflexivity.
    + refine (ev_bind _ _ _ _ T _). cbn beta. rewrite R. apply ev_const.
Qed.
Definition is_adir (x : option thing) : bool := match x with Some ADir => true | _ => false end.
Lemma is_dir_gives w u ns : located w u ns -> gives (fun f => is_dir f w u) (is_adir (thing_at w ns)).
Proof.
  intros L. destruct (located_path w u ns L) as (LS & t & T & R). unfold is_dir. rewrite LS. cbn [negb]. refine (ev_bind _ _ _ _ T _). unfold info. rewrite R. unfold thing_at.
  destruct (get (top w) ns) as [[b | l] |]; apply ev_const.
Qed.
Lemma chdir_gives w u ns : located w u ns -> eventually (fun f => chdir f u w) (if is_adir (thing_at w ns) then Ok (Disk (top w) ns) else Throw).
Proof.
  intros L. destruct (located_path w u ns L) as (LS & t & T & R). unfold chdir. rewrite LS. refine (ev_bind _ _ _ _ T _). unfold info. rewrite R. unfold thing_at.
  destruct (get (top w) ns) as [[b | l] |]; apply ev_const.
Qed.
Lemma mkdir_some w u ns may : wf (top w) -> located w u ns -> exists w', gives (fun f => mkdir f may u w) w' /\ with_some w ns w'.
Proof.
  intros W L. eexists. split; [apply mkdir_gives; exact L|]. split; [apply make_wf; exact W|]. split; [reflexivity|]. intros q. rewrite !thing_seen. apply make_any.
Qed.
Lemma mkdir_all w u ns may : wf (top w) -> located w u ns -> (forall q, may q = true) -> free w ns -> exists w', gives (fun f => mkdir f may u w) w' /\ with_directory w ns w'.
Proof.
  intros W L M F. eexists. split; [apply mkdir_gives; exact L|]. split; [apply make_wf; exact W|]. split; [reflexivity|]. split.
  - intros q Q. rewrite thing_seen. cbn [top]. apply make_all; [exact M | | exact Q]. intros q' b Q'. rewrite <- thing_seen. apply F. exact Q'.
  - intros q Q. rewrite !thing_seen. cbn [top]. destruct (make_any may ns [] (top w) q) as [E | (E & _)]; [exact E | contradiction].
Qed.
Lemma rmdir_some w u ns keeps : wf (top w) -> located w u ns -> exists w', gives (fun f => rmdir f keeps u w) w' /\ without_some w ns w'.
Proof.
  intros W L. eexists. split; [apply rmdir_gives; exact L|]. destruct (take_any keeps ns [] (top w) W) as (W' & S). split; [exact W'|]. split; [reflexivity|]. intros q. rewrite !thing_seen. apply S.
Qed.
Lemma rmdir_all w u ns keeps : wf (top w) -> located w u ns -> (forall q, keeps q = false) -> ns <> [] -> exists w', gives (fun f => rmdir f keeps u w) w' /\ without w ns w'.
Proof.
  intros W L K N. eexists. split; [apply rmdir_gives; exact L|]. destruct (take_any keeps ns [] (top w) W) as (W' & S). split; [exact W'|]. split; [reflexivity|]. split.
  - intros q Q. rewrite thing_seen. cbn [top]. apply take_all; assumption.
  - intros q Q. rewrite !thing_seen. cbn [top]. destruct (S q) as [E | (E & _)]; [exact E | contradiction].
Qed.

(** ** Parents *)
Lemma plains ts : Forall plain ts -> Forall proper (map Atom ts).
Proof. intros F. induction F; cbn; constructor; auto using plain_proper. Qed.
Lemma not_web' p c : p = lit "default" \/ p = lit "file" -> ~ web (Root p c).
Proof. intros [-> | ->] (p' & d & E & I); injection E as <- _; cbn in I; destruct I as [I | [I | [I | [I | []]]]]; discriminate. Qed.
Lemma located_more w u ns t : located w u ns -> plain t -> exists v, product u (Atom t) v /\ the_head v u /\ located w v (ns ++ [t]).
Proof.
  intros L P. destruct L as [ts F | p c ts Q F].
  - exists (path (map Atom (ts ++ [t]))). rewrite map_app. destruct (head_tail (map Atom ts) (Atom t) (plains ts F) (plain_proper t P)) as (H & _ & M). split; [exact M|]. split; [exact H|].
    rewrite <- app_assoc. change [Atom t] with (map Atom [t]). rewrite <- map_app. apply located_relative. apply Forall_app. auto.
  - exists (rooted (Root p c) (map Atom (ts ++ [t]))). rewrite map_app.
    destruct (rooted_head_tail (Root p c) (map Atom ts) (Atom t)) as (H & _ & M); [exists p, c; reflexivity | left; apply not_web'; exact Q | apply plains; exact F | apply plain_proper; exact P|].
    split; [exact M|]. split; [exact H|]. change [Atom t] with (map Atom [t]). rewrite <- map_app. apply located_rooted; [exact Q | apply Forall_app; auto].
Qed.
(** Every url with a place is reached from "." or from a root. *)
Inductive chain (w : disk) : url -> list str -> Prop :=
| chain_start u ns : located w u ns -> ns = [] \/ ns = cwd w -> chain w u ns
| chain_more v u ns t : chain w u ns -> plain t -> the_head v u -> located w v (ns ++ [t]) -> chain w v (ns ++ [t]).
Lemma chain_located w u ns : chain w u ns -> located w u ns.
Proof. intros C. destruct C; assumption. Qed.
Lemma located_chain w u ns : located w u ns -> chain w u ns.
Proof.
  intros L. destruct L as [ts F | p c ts Q F].
  - induction ts as [| t ts IH] using rev_ind; [apply chain_start; [constructor; constructor | right; apply app_nil_r]|].
    apply Forall_app in F as [F P]. inversion P; subst. destruct (located_more w _ _ t (located_relative w ts F) H1) as (v & M & H & L).
    assert (E : v = path (map Atom (ts ++ [t]))). { rewrite map_app. destruct (head_tail (map Atom ts) (Atom t) (plains ts F) (plain_proper t H1)) as (_ & _ & M'). assert (X := ev_det _ _ _ M M'). injection X as X. exact X. }
    rewrite app_assoc. subst v. eapply chain_more; [exact (IH F) | exact H1 | exact H | exact L].
  - induction ts as [| t ts IH] using rev_ind; [apply chain_start; [constructor; [exact Q | constructor] | left; reflexivity]|].
    apply Forall_app in F as [F P]. inversion P; subst. destruct (located_more w _ _ t (located_rooted w p c ts Q F) H1) as (v & M & H & L).
    assert (E : v = rooted (Root p c) (map Atom (ts ++ [t]))).
    { rewrite map_app. destruct (rooted_head_tail (Root p c) (map Atom ts) (Atom t)) as (_ & _ & M'); [exists p, c; reflexivity | left; apply not_web'; exact Q | apply plains; exact F | apply plain_proper; exact H1|]. assert (X := ev_det _ _ _ M M'). injection X as X. exact X. }
    subst v. eapply chain_more; [exact (IH F) | exact H1 | exact H | exact L].
Qed.
Lemma located_none w u ns : located w u ns -> is_none u = false.
Proof. intros L. destruct (located_shape w u ns L) as [(p & c & -> & _) | [(s & ->) | (a & b & ->)]]; reflexivity. Qed.
Lemma make_dir_is w u ns may : located w u ns -> thing_at w ns = Some ADir -> gives (fun f => make_dir f may u w) w.
Proof.
  intros L D. apply ev_S. cbn [make_dir]. rewrite (located_none w u ns L). refine (ev_bind (fun f => is_dir f w u) _ _ _ (is_dir_gives w u ns L) _). rewrite D. cbn [is_adir]. apply ev_const.
Qed.
Lemma make_dir_head w u ns v t may w1 : located w v (ns ++ [t]) -> the_head v u -> thing_at w (ns ++ [t]) <> Some ADir -> gives (fun f => make_dir f may u w) w1 -> forall w2,
  gives (fun f => mkdir f may v w1) w2 -> gives (fun f => make_dir f may v w) w2.
Proof.
  intros L H D M w2 K. apply ev_S. cbn [make_dir]. rewrite (located_none w v _ L). refine (ev_bind (fun f => is_dir f w v) _ _ _ (is_dir_gives w v _ L) _).
  replace (is_adir (thing_at w (ns ++ [t]))) with false by (destruct (thing_at w (ns ++ [t])) as [[b |] |]; [reflexivity | congruence | reflexivity]). cbn iota.
  refine (ev_bind (fun f => head f v) _ _ _ H _). refine (ev_bind (fun f => make_dir f may u w) _ _ _ M _). exact K.
Qed.
Lemma above_snoc q p t : at_or_above q (p ++ [t]) -> at_or_above q p \/ q = p ++ [t].
Proof.
  intros (r & E). destruct r as [| x r] using rev_ind; [right; rewrite app_nil_r in E; auto|]. rewrite app_assoc in E. apply app_inj_tail in E as [E _]. left. exists r. exact E.
Qed.
Lemma above_app q p t : at_or_above q p -> at_or_above q (p ++ t).
Proof. intros (r & ->). exists (r ++ t). apply app_assoc_reverse. Qed.
Lemma thing_above w p q : thing_at w q = Some ADir -> at_or_above p q -> thing_at w p = Some ADir.
Proof. intros S P. exact (seen_above (top w) q S p P). Qed.
Lemma thing_dec w q : {thing_at w q = Some ADir} + {thing_at w q <> Some ADir}.
Proof. destruct (thing_at w q) as [[b |] |]; [right; discriminate | left; reflexivity | right; discriminate]. Qed.
Lemma with_some_same w p : wf (top w) -> with_some w p w.
Proof. intros W. repeat split; auto. Qed.
Lemma make_dir_some w u ns may : wf (top w) -> thing_at w [] = Some ADir -> thing_at w (cwd w) = Some ADir -> located w u ns -> exists w', gives (fun f => make_dir f may u w) w' /\ with_some w ns w'.
Proof.
  intros W T C L. apply located_chain in L. induction L as [u ns L E | v u ns t Ch IH P H L].
  - exists w. split; [|apply with_some_same; exact W]. apply (make_dir_is w u ns); [exact L | destruct E as [-> | ->]; assumption].
  - destruct (thing_dec w (ns ++ [t])) as [D | D]; [exists w; split; [apply (make_dir_is w v _ may L D) | apply with_some_same; exact W]|].
    destruct IH as (w1 & M1 & W1 & E1 & S1). destruct (mkdir_some w1 v (ns ++ [t]) may W1 (located_cwd w w1 v _ E1 L)) as (w2 & M2 & W2 & E2 & S2). exists w2.
    split; [exact (make_dir_head w u ns v t may w1 L H D M1 w2 M2)|]. split; [exact W2|]. split; [congruence|]. intros q.
    destruct (S1 q) as [A1 | (A1 & B1 & C1)], (S2 q) as [A2 | (A2 & B2 & C2)].
    + left. congruence.
    + right. split; [exact A2|]. split; [congruence | exact C2].
    + right. split; [apply above_app; exact A1|]. split; [exact B1 | congruence].
    + congruence.
Qed.
Lemma make_dir_all w u ns may : wf (top w) -> thing_at w [] = Some ADir -> thing_at w (cwd w) = Some ADir -> located w u ns -> (forall q, may q = true) -> free w ns ->
  exists w', gives (fun f => make_dir f may u w) w' /\ with_directory w ns w'.
Proof.
  intros W T C L M F. assert (SAME : forall p, thing_at w p = Some ADir -> with_directory w p w) by (intros p D; repeat split; auto; intros q Q; apply (thing_above w q p D Q)).
  apply located_chain in L. induction L as [u ns L E | v u ns t Ch IH P H L].
  - assert (D : thing_at w ns = Some ADir) by (destruct E as [-> | ->]; assumption). exists w. split; [apply (make_dir_is w u ns may L D) | apply SAME; exact D].
  - destruct (thing_dec w (ns ++ [t])) as [D | D]; [exists w; split; [apply (make_dir_is w v _ may L D) | apply SAME; exact D]|].
    destruct IH as (w1 & M1 & W1 & E1 & S1 & N1). { intros q b Q. apply F. apply above_app. exact Q. }
    assert (FR : free w1 (ns ++ [t])).
    { intros q b Q. apply above_snoc in Q as [Q | ->]; [rewrite S1 by exact Q; discriminate|]. rewrite N1; [apply F; exists []; rewrite app_nil_r; reflexivity|].
      intros (r & R). apply (f_equal (@length str)) in R. rewrite !app_length in R. cbn in R. lia. }
    destruct (mkdir_all w1 v (ns ++ [t]) may W1 (located_cwd w w1 v _ E1 L) M FR) as (w2 & M2 & W2 & E2 & S2 & N2). exists w2.
    split; [exact (make_dir_head w u ns v t may w1 L H D M1 w2 M2)|]. split; [exact W2|]. split; [congruence|]. split; [exact S2|]. intros q Q. rewrite N2 by exact Q. apply N1. intros R. apply Q. apply above_app. exact R.
Qed.
(** Of a server *)
Lemma head_host r h f : web r -> head (S f) (rooted r [Atom h]) = Ok (rooted r [Atom h]).
Proof. intros (p & c & -> & I). unfold head. cbn [mul rooted path]. unfold mul_step. cbn in I. destruct I as [<- | [<- | [<- | [<- | []]]]]; reflexivity. Qed.
Lemma make_dir_host r h may w f : web r -> make_dir f may (rooted r [Atom h]) w = Fuel.
Proof.
  intros W. induction f as [| f IH]; [reflexivity|]. cbn [make_dir]. assert (N : is_none (rooted r [Atom h]) = false) by (destruct W as (p & c & -> & _); reflexivity). rewrite N.
  assert (D : is_dir f w (rooted r [Atom h]) = Ok false). { destruct W as (p & c & -> & I). unfold is_dir. cbn in I. destruct I as [<- | [<- | [<- | [<- | []]]]]; reflexivity. }
  rewrite D. cbn [bind]. destruct f as [| f]; [reflexivity|]. rewrite head_host by exact W. cbn [bind]. rewrite IH. reflexivity.
Qed.

(** ** Listing *)
Lemma slashes_join p : p <> [] -> slashes p = lit "/" ++ Spec.Search.join (lit "/") p.
Proof. induction p as [| n [| n2 p] IH]; intros N; [congruence | cbn; rewrite app_nil_r; reflexivity|]. cbn [slashes] in *. rewrite IH by discriminate. reflexivity. Qed.
Lemma filter_kept ts : Forall plain ts -> filter kept ts = ts.
Proof.
  intros F. induction F as [| t ts (_ & _ & _ & N & D & _) F IH]; [reflexivity|]. cbn. unfold kept. rewrite (proj2 (seqb_neq t []) N), (proj2 (seqb_neq t (lit ".")) D). cbn [negb andb]. exact (f_equal (cons t) IH).
Qed.
Lemma join_names ts : ts <> [] -> Forall plain ts -> names (Spec.Search.join (lit "/") ts) = ts.
Proof.
  intros N F. rewrite names_eq, split_plain by assumption. destruct (exists_last N) as (r & t & ->). rewrite removelast_last, last_app. apply Forall_app in F as [F _]. rewrite filter_kept by exact F. reflexivity.
Qed.
Lemma join_in ts c : In c (Spec.Search.join (lit "/") ts) -> c = "/"%char \/ exists t, In t ts /\ In c t.
Proof.
  induction ts as [| t [| t2 ts] IH]; [intros [] | |].
  - cbn [Spec.Search.join]. intros I. right. exists t. split; [left; reflexivity | exact I].
  - change (Spec.Search.join (lit "/") (t :: t2 :: ts)) with (t ++ "/"%char :: Spec.Search.join (lit "/") (t2 :: ts)). rewrite in_app_iff. intros [I | [I | I]].
    + right. exists t. split; [left; reflexivity | exact I].
    + left. auto.
    + destruct (IH I) as [E | (t' & J & K)]; [auto|]. right. exists t'. split; [right; exact J | exact K].
Qed.
Lemma ordinary_plain ts : Forall ordinary ts -> Forall plain ts.
Proof. intros F. eapply Forall_impl; [|exact F]. intros t (P & _). exact P. Qed.
Lemma ordinary_text ts : ts <> [] -> Forall ordinary ts -> let s := Spec.Search.join (lit "/") ts in
  ~ has_prefix (lit "/") s /\ ~ In ":"%char s /\ literal SYSTEM s /\ tame s /\ components s = map Atom ts /\ last (names s) [] <> lit ".".
Proof.
  intros N F s. assert (P := ordinary_plain ts F). assert (NM : names s = ts) by (apply join_names; assumption). split; [|split; [|split; [|split; [|split]]]].
  - destruct (join_head ts N P) as (c & r & E & C). fold s in E. intros (q & E'). rewrite E in E'. injection E' as -> _. discriminate.
  - intros I. apply join_in in I as [I | (t & I & J)]; [discriminate|]. rewrite Forall_forall in F. destruct (F t I) as (_ & NC & _). exact (NC J).
  - right. right. unfold s. rewrite split_plain by assumption. eapply Forall_impl; [|exact F]. intros t (_ & _ & S). exact S.
  - left. unfold last_star. rewrite NM. apply plain_star. exact P.
  - unfold components. rewrite NM. apply plain_map. exact P.
  - rewrite NM. destruct (exists_last N) as (r & t & ->). rewrite last_app. apply Forall_app in P as [_ P]. inversion P as [| ? ? (_ & _ & _ & _ & D & _) _]; subst. exact D.
Qed.
Lemma plain_no_ups ts : Forall plain ts -> no_ups (map Atom ts) = map Atom ts.
Proof. intros F. destruct F as [| t ts P F]; [reflexivity|]. cbn [map no_ups is_up]. destruct P as (_ & _ & _ & _ & _ & U & _). rewrite (proj2 (seqb_neq t (lit "..")) U). reflexivity. Qed.
Lemma walk_name_gives env p n : Forall ordinary p -> ordinary n -> gives (fun f => walk_name f env p n) n.
Proof.
  intros F O. assert (N : p ++ [n] <> []) by (destruct p; discriminate). assert (A : Forall ordinary (p ++ [n])) by (apply Forall_app; auto).
  destruct (ordinary_text (p ++ [n]) N A) as (T1 & T2 & T3 & T4 & T5 & T6). assert (PL := ordinary_plain _ A).
  assert (G := parse_absolute env SYSTEM _ T1 T2 T3 T4 T6). rewrite T5, plain_no_ups in G by exact PL.
  assert (E : ueqb (path (map Atom (p ++ [n]))) (Atom []) = false).
  { destruct p as [| x [| y p]]; try reflexivity. cbn. destruct O as ((_ & _ & _ & NE & _) & _). apply seqb_neq. exact NE. }
  rewrite E in G. unfold walk_name. rewrite slashes_join by exact N. refine (ev_bind _ _ _ _ G _).
  rewrite map_app. cbn [map]. rewrite tail_rooted.
  - apply ev_const.
  - eexists; eexists; reflexivity.
  - left. apply not_web'. left. reflexivity.
  - apply proper_comp, plains, ordinary_plain, F.
  - apply plain_proper, O.
Qed.
Lemma mapM_gives {A} (g : nat -> A -> res A) l : Forall (fun x => gives (fun f => g f x) x) l -> gives (fun f => mapM (g f) l) l.
Proof.
  intros F. induction F as [| x l G F IH]; [exists O; reflexivity|]. cbn [mapM]. refine (ev_bind (fun f => g f x) _ _ _ G _). refine (ev_bind (fun f => mapM (g f) l) _ _ _ IH _). apply ev_const.
Qed.
Lemma read_gives env w u ns l : located w u ns -> get (top w) ns = Some (TDir l) -> Forall ordinary ns -> Forall ordinary (map fst l) -> gives (fun f => read_directory f env w u) (map fst l, false).
Proof.
  intros L G F O. destruct (located_path w u ns L) as (LS & t & T & R). unfold read_directory. rewrite LS. cbn [negb]. refine (ev_bind _ _ _ _ T _). unfold info. rewrite R, G.
  refine (ev_bind (fun f => mapM (walk_name f env ns) (map fst l)) _ _ _ (mapM_gives (fun f => walk_name f env ns) _ _) _); [|apply ev_const].
  eapply Forall_impl; [|exact O]. intros n. apply walk_name_gives. exact F.
Qed.
Lemma get_app t p : forall q, get t (p ++ q) = match get t p with Some c => get c q | None => None end.
Proof.
  revert t. induction p as [| n p IH]; intros t q; cbn [app get]; [reflexivity|]. destruct t as [b | l]; [reflexivity|]. destruct (find n l); [apply IH | reflexivity].
Qed.
Lemma get_wf t p c : wf t -> get t p = Some c -> wf c.
Proof.
  revert t. induction p as [| n p IH]; intros t W G; cbn in G; [congruence|]. destruct t as [b | l]; [discriminate|]. destruct (find n l) as [d |] eqn:F; [|discriminate]. exact (IH d (wf_find l n d W F) G).
Qed.
Lemma read_exact env w u ns : wf (top w) -> located w u ns -> thing_at w ns = Some ADir -> Forall ordinary ns -> (forall n, thing_at w (ns ++ [n]) <> None -> ordinary n) ->
  exists l, gives (fun f => read_directory f env w u) (l, false) /\ NoDup l /\ forall n, In n l <-> thing_at w (ns ++ [n]) <> None.
Proof.
  intros W L D F O. unfold thing_at in D. destruct (get (top w) ns) as [[b | l] |] eqn:G; [discriminate | | discriminate].
  assert (X : forall n, In n (map fst l) <-> thing_at w (ns ++ [n]) <> None).
  { intros n. unfold thing_at. rewrite get_app, G. cbn [get]. destruct (find n l) as [c |] eqn:E.
    - split; [discriminate|]. intros _. apply find_in in E. apply in_map_iff. exists (n, c). auto.
    - apply find_none in E. split; [contradiction | congruence]. }
  exists (map fst l). split; [|split; [|exact X]].
  - apply (read_gives env w u ns l L G F). apply Forall_forall. intros n I. apply O. apply X. exact I.
  - assert (WL := get_wf (top w) ns (TDir l) W G). inversion WL; subst. assumption.
Qed.
Lemma read_error env w u ns : located w u ns -> thing_at w ns <> Some ADir -> gives (fun f => read_directory f env w u) ([], true).
Proof.
  intros L D. destruct (located_path w u ns L) as (LS & t & T & R). unfold read_directory. rewrite LS. cbn [negb]. refine (ev_bind _ _ _ _ T _). unfold info. rewrite R. unfold thing_at in D.
  destruct (get (top w) ns) as [[b | l] |]; [apply ev_const | exfalso; apply D; reflexivity | apply ev_const].
Qed.

(** ** Directories below *)
Definition sub_loop (f : nat) (env : str -> str) (w : disk) (u : url) : list str -> url -> res url :=
  fix loop (dir : list str) (ret : url) : res url :=
    match dir with
    | [] => Ok ret
    | n :: rest =>
      let* h := starts n (lit ".") in
      if h then loop rest ret
      else
        let* v := general f env n SYSTEM in
        let* x := mul f u v in
        let* e := is_dir f w x in
        if e then let* y := subdirectories f env w x in loop rest (uor ret y) else loop rest ret
    end.
Lemma sub_eq f env w u ns : located w u ns -> subdirectories (S f) env w u = let* d := is_dir f w u in if d then let* r := read_directory f env w u in sub_loop f env w u (fst r) u else Ok Nothing.
Proof. intros L. destruct (located_shape w u ns L) as [(p & c & -> & _) | [(s & ->) | (a & b & ->)]]; reflexivity. Qed.
Lemma sub_none env w u ns : located w u ns -> thing_at w ns <> Some ADir -> gives (fun f => subdirectories f env w u) Nothing.
Proof.
  intros L D. apply ev_S. refine (ev_ext (fun f => let* d := is_dir f w u in if d then let* r := read_directory f env w u in sub_loop f env w u (fst r) u else Ok Nothing) _ _ _ _); [intros f; symmetry; apply (sub_eq f env w u ns L)|].
  refine (ev_bind (fun f => is_dir f w u) _ _ _ (is_dir_gives w u ns L) _). replace (is_adir (thing_at w ns)) with false by (destruct (thing_at w ns) as [[b |] |]; [reflexivity | congruence | reflexivity]). apply ev_const.
Qed.
Lemma parse_name env t : ordinary t -> no_host t -> gives (fun f => general f env t SYSTEM) (Atom t).
Proof.
  intros O H. destruct (ordinary_text [t]) as (T1 & T2 & T3 & T4 & T5 & T6); [discriminate | constructor; [exact O | constructor]|]. cbn [Spec.Search.join] in *.
  assert (G := parse_relative env SYSTEM t T2 T1 (or_intror H) T3 T4). rewrite T5 in G. exact G.
Qed.
Lemma extends_fun u ts x y : extends u ts x -> extends u ts y -> x = y.
Proof.
  intros B. revert y. induction B as [u | u t x ts v M B IH]; intros y C; inversion C as [| ? ? x' ? ? M' C']; subst; [reflexivity|]. assert (X := ev_det _ _ _ M M'). injection X as <-. apply IH. exact C'.
Qed.
Lemma located_alts w u ns : located w u ns -> alts u = [u].
Proof. intros L. destruct (located_shape w u ns L) as [(p & c & -> & _) | [(s & ->) | (a & b & ->)]]; reflexivity. Qed.
Definition under (env : str -> str) (w : disk) (u : url) (t : tree) (r : url) : Prop :=
  gives (fun f => subdirectories f env w u) r /\ forall x, In x (alts r) <-> exists ts, Forall (fun t => ~ hidden t) ts /\ extends u ts x /\ seen t ts = Some ADir.
Lemma sub_exact env w : forall t, wf t -> kind t = ADir -> forall ns u, get (top w) ns = Some t -> located w u ns -> Forall ordinary ns ->
  (forall ts, seen t ts <> None -> Forall (fun n => ordinary n /\ no_host n) ts) -> exists r, under env w u t r.
Proof.
  induction t as [b | l IH] using tree_ind'; intros W K ns u G L F O; [discriminate|]. clear K. inversion W as [| ? ND WC]; subst.
  assert (ON : forall n c, In (n, c) l -> ordinary n /\ no_host n).
  { intros n c I. assert (X : seen (TDir l) [n] <> None) by (rewrite seen_dir, (find_unique n l c ND I); discriminate). apply O in X. inversion X; subst. assumption. }
  assert (LOOP : forall l', (forall n c, In (n, c) l' -> In (n, c) l) -> forall ret, exists r, gives (fun f => sub_loop f env w u (map fst l') ret) r /\
    forall x, In x (alts r) <-> In x (alts ret) \/ exists n c ts, In (n, c) l' /\ ~ hidden n /\ Forall (fun t => ~ hidden t) ts /\ extends u (n :: ts) x /\ seen c ts = Some ADir).
  { induction l' as [| (n, c) l' IHl]; intros SUB ret.
    - exists ret. split; [exists 0%nat; reflexivity|]. intros x. split; [auto|]. intros [I | (n & c & ts & [] & _)]. exact I.
    - assert (I : In (n, c) l) by (apply SUB; left; reflexivity). assert (SUB' : forall m d, In (m, d) l' -> In (m, d) l) by (intros m d J; apply SUB; right; exact J).
      destruct (ON n c I) as (On & Hn). destruct (starts_spec n (lit ".")) as (h & SH & H). destruct h.
      + destruct (IHl SUB' ret) as (r & R & X). exists r. split; [refine (ev_ext (fun f => sub_loop f env w u (map fst l') ret) _ _ _ R); intros f; cbn [sub_loop map fst]; rewrite SH; reflexivity|].
        intros x. rewrite X. apply or_iff_compat_l. split; intros (m & d & ts & J & Y); [exists m, d, ts; split; [right; exact J | exact Y]|].
        destruct J as [[= <- <-] | J]; [exfalso; apply (proj1 Y); apply H; reflexivity | exists m, d, ts; split; [exact J | exact Y]].
      + destruct (located_more w u ns n L (proj1 On)) as (v & M & _ & LV). assert (GC : get (top w) (ns ++ [n]) = Some c) by (rewrite get_app, G; cbn [get]; rewrite (find_unique n l c ND I); reflexivity).
        assert (DIR := is_dir_gives w v _ LV). unfold thing_at in DIR. rewrite GC in DIR. assert (NH : ~ hidden n) by (intros X; apply H in X; discriminate).
        assert (VB : forall ts x, extends u (n :: ts) x <-> extends v ts x).
        { intros ts x. split; [intros B; inversion B as [| ? ? y ? ? M' B']; subst; assert (X := ev_det _ _ _ M M'); injection X as <-; exact B' | intros B; econstructor; [exact M | exact B]]. }
        destruct (kind c) eqn:K.
        * destruct (IHl SUB' ret) as (r & R & X). exists r. split.
          { refine (ev_ext (fun f => let* v0 := general f env n SYSTEM in let* x := mul f u v0 in let* e := is_dir f w x in if e then let* y := subdirectories f env w x in sub_loop f env w u (map fst l') (uor ret y) else sub_loop f env w u (map fst l') ret) _ _ _ _); [intros f; cbn [sub_loop map fst]; rewrite SH; reflexivity|].
            refine (ev_bind (fun f => general f env n SYSTEM) _ _ _ (parse_name env n On Hn) _). refine (ev_bind (fun f => mul f u (Atom n)) _ _ _ M _). refine (ev_bind (fun f => is_dir f w v) _ _ _ DIR _). exact R. }
          intros x. rewrite X. apply or_iff_compat_l. split; intros (m & d & ts & J & Y); [exists m, d, ts; split; [right; exact J | exact Y]|].
          destruct J as [[= <- <-] | J]; [|exists m, d, ts; split; [exact J | exact Y]]. exfalso. destruct Y as (_ & _ & _ & S). destruct c; [|discriminate]. destruct ts; discriminate.
        * destruct (IH n c I (WC n c I) K (ns ++ [n]) v GC LV) as (y & Y1 & Y2).
          { apply Forall_app. split; [exact F | constructor; [exact On | constructor]]. }
          { intros ts S. assert (X : Forall (fun n => ordinary n /\ no_host n) (n :: ts)); [|inversion X; assumption]. apply O. rewrite seen_dir, (find_unique n l c ND I). exact S. }
          destruct (IHl SUB' (uor ret y)) as (r & R & X). exists r. split.
          { refine (ev_ext (fun f => let* v0 := general f env n SYSTEM in let* x := mul f u v0 in let* e := is_dir f w x in if e then let* y := subdirectories f env w x in sub_loop f env w u (map fst l') (uor ret y) else sub_loop f env w u (map fst l') ret) _ _ _ _); [intros f; cbn [sub_loop map fst]; rewrite SH; reflexivity|].
            refine (ev_bind (fun f => general f env n SYSTEM) _ _ _ (parse_name env n On Hn) _). refine (ev_bind (fun f => mul f u (Atom n)) _ _ _ M _). refine (ev_bind (fun f => is_dir f w v) _ _ _ DIR _).
            cbn [is_adir]. refine (ev_bind (fun f => subdirectories f env w v) _ _ _ Y1 _). exact R. }
          intros x. rewrite X, uor_in, Y2. split.
          { intros [[J | (ts & A & B & C)] | (m & d & ts & J & Z)]; [left; exact J | right; exists n, c, ts | right; exists m, d, ts; split; [right; exact J | exact Z]].
            split; [left; reflexivity|]. split; [exact NH|]. split; [exact A|]. split; [apply VB; exact B | exact C]. }
          { intros [J | (m & d & ts & [[= <- <-] | J] & Z)]; [left; left; exact J | | right; exists m, d, ts; split; [exact J | exact Z]].
            destruct Z as (_ & A & B & C). left. right. exists ts. split; [exact A|]. split; [apply VB; exact B | exact C]. } }
  destruct (LOOP l (fun n c I => I) u) as (r & R & X). exists r. split.
  - apply ev_S. refine (ev_ext (fun f => let* d := is_dir f w u in if d then let* r := read_directory f env w u in sub_loop f env w u (fst r) u else Ok Nothing) _ _ _ _); [intros f; symmetry; apply (sub_eq f env w u ns L)|].
    assert (DIR := is_dir_gives w u ns L). unfold thing_at in DIR. rewrite G in DIR. refine (ev_bind (fun f => is_dir f w u) _ _ _ DIR _). cbn [kind is_adir].
    refine (ev_bind (fun f => read_directory f env w u) _ _ _ (read_gives env w u ns l L G F _) _); [|exact R].
    apply Forall_forall. intros n I. apply in_map_iff in I as ((m, c) & E & I). cbn in E. subst m. exact (proj1 (ON n c I)).
  - intros x. rewrite X, (located_alts w u ns L). split.
    + intros [[<- | []] | (n & c & ts & I & NH & A & B & C)]; [exists []; split; [constructor|]; split; [constructor | reflexivity]|].
      exists (n :: ts). split; [constructor; assumption|]. split; [exact B|]. rewrite seen_dir, (find_unique n l c ND I). exact C.
    + intros ([| n ts] & A & B & C); [left; left; inversion B; reflexivity|]. right. rewrite seen_dir in C. destruct (find n l) as [c |] eqn:E; [|discriminate]. inversion A; subst. exists n, c, ts.
      split; [apply find_in; exact E|]. split; [assumption|]. split; [assumption|]. split; [exact B | exact C].
Qed.
Lemma sub_all env w u ns : wf (top w) -> located w u ns -> thing_at w ns = Some ADir -> Forall ordinary ns -> all_below (fun n => ordinary n /\ no_host n) w ns ->
  exists r, gives (fun f => subdirectories f env w u) r /\ forall x, In x (alts r) <-> exists ts, Forall (fun t => ~ hidden t) ts /\ extends u ts x /\ thing_at w (ns ++ ts) = Some ADir.
Proof.
  intros W L D F O. unfold thing_at in D. destruct (get (top w) ns) as [t |] eqn:G; [|discriminate].
  assert (X : forall ts, thing_at w (ns ++ ts) = seen t ts) by (intros ts; unfold thing_at, seen; rewrite get_app, G; reflexivity).
  destruct (sub_exact env w t (get_wf _ _ _ W G)) with (ns := ns) (u := u) as (r & R & Y); [congruence | exact G | exact L | exact F | intros ts S; apply O; rewrite X; exact S|].
  exists r. split; [exact R|]. intros x. rewrite Y. split; intros (ts & A & B & C); exists ts; (split; [exact A|]; split; [exact B|]); [rewrite X; exact C | rewrite <- X; exact C].
Qed.

(** ** Alternatives *)
Lemma all_cwd w w' u : cwd w' = cwd w -> all_located w u -> all_located w' u.
Proof. intros E A x I. destruct (A x I) as (p & L). exists p. exact (located_cwd w w' x p E L). Qed.
Lemma place_cwd w w' u p : cwd w' = cwd w -> place_of w' u p -> place_of w u p.
Proof. intros E (x & I & L). exists x. split; [exact I | exact (located_cwd w' w x p (eq_sym E) L)]. Qed.
Lemma place_or w a b p : place_of w (Or a b) p <-> place_of w a p \/ place_of w b p.
Proof.
  unfold place_of. cbn [alts]. split.
  - intros (x & I & L). apply in_app_or in I as [I | I]; [left | right]; exists x; auto.
  - intros [(x & I & L) | (x & I & L)]; exists x; (split; [apply in_or_app; auto | exact L]).
Qed.
Lemma all_or w a b : all_located w (Or a b) -> all_located w a /\ all_located w b.
Proof. intros A. split; intros x I; apply A; cbn [alts]; apply in_or_app; auto. Qed.
Lemma located_fun w u p q : located w u p -> located w u q -> p = q.
Proof.
  intros L M. destruct (located_path w u p L) as (_ & t & T & R). destruct (located_path w u q M) as (_ & s & S & Q). assert (X := ev_det _ _ _ T S). injection X as <-. congruence.
Qed.
Lemma leaf_alts u : (exists a b, u = Or a b) \/ u = Nothing \/ alts u = [u].
Proof. destruct u; eauto. Qed.
Lemma mkdir_alts may u : forall w, wf (top w) -> all_located w u -> exists w', gives (fun f => mkdir f may u w) w' /\ wf (top w') /\ cwd w' = cwd w /\
  (forall q, thing_at w' q = thing_at w q \/ ((exists p, place_of w u p /\ at_or_above q p) /\ thing_at w q = None /\ thing_at w' q = Some ADir)) /\
  ((forall q, may q = true) -> (forall p, place_of w u p -> free w p) -> forall p q, place_of w u p -> at_or_above q p -> thing_at w' q = Some ADir).
Proof.
  assert (BASE : forall u, alts u = [u] -> forall w, wf (top w) -> all_located w u -> exists w', gives (fun f => mkdir f may u w) w' /\ wf (top w') /\ cwd w' = cwd w /\
    (forall q, thing_at w' q = thing_at w q \/ ((exists p, place_of w u p /\ at_or_above q p) /\ thing_at w q = None /\ thing_at w' q = Some ADir)) /\
    ((forall q, may q = true) -> (forall p, place_of w u p -> free w p) -> forall p q, place_of w u p -> at_or_above q p -> thing_at w' q = Some ADir)).
  { clear u. intros u E w W A. destruct (A u) as (p & L); [rewrite E; left; reflexivity|]. assert (PU : place_of w u p) by (exists u; split; [rewrite E; left; reflexivity | exact L]).
    destruct (mkdir_some w u p may W L) as (w' & G & W' & C & S). exists w'. split; [exact G|]. split; [exact W'|]. split; [exact C|]. split.
    - intros q. destruct (S q) as [X | (X & Y)]; [left; exact X|]. right. split; [exists p; auto | exact Y].
    - intros M F p' q (x & I & L') Q. rewrite E in I. destruct I as [<- | []]. rewrite (located_fun w u p' p L' L) in Q.
      destruct (mkdir_all w u p may W L M (F p PU)) as (w2 & G2 & _ & _ & S2 & _). assert (X := ev_det _ _ _ G G2). injection X as <-. apply S2. exact Q. }
  induction u as [s | | p c | s | a IHa b IHb | a IHa b IHb]; try (apply BASE; reflexivity).
  - intros w W A. exists w. split; [exists 0%nat; reflexivity|]. split; [exact W|]. split; [reflexivity|]. split; [auto|]. intros _ _ p q (x & [] & _).
  - intros w W A. apply all_or in A as [Aa Ab]. destruct (IHa w W Aa) as (w1 & G1 & W1 & C1 & S1 & M1). destruct (IHb w1 W1 (all_cwd w w1 b C1 Ab)) as (w2 & G2 & W2 & C2 & S2 & M2). exists w2.
    split; [refine (ev_bind (fun f => mkdir f may a w) _ _ _ G1 _); exact G2|]. split; [exact W2|]. split; [congruence|]. split.
    + intros q. destruct (S1 q) as [A1 | ((p1 & A1 & Q1) & B1 & D1)], (S2 q) as [A2 | ((p2 & A2 & Q2) & B2 & D2)]; [left; congruence | | |congruence]; right.
      * split; [exists p2; split; [apply place_or; right; exact (place_cwd w w1 b p2 C1 A2) | exact Q2]|]. split; [congruence | exact D2].
      * split; [exists p1; split; [apply place_or; left; exact A1 | exact Q1]|]. split; [exact B1 | congruence].
    + intros M F p q P Q. apply place_or in P as [P | P].
      * assert (X := M1 M (fun p P => F p (proj2 (place_or w a b p) (or_introl P))) p q P Q). destruct (S2 q) as [Y | (_ & Y & _)]; congruence.
      * apply (M2 M) with (p := p); [|destruct P as (x & I & L); exists x; split; [exact I | exact (located_cwd w w1 x p C1 L)] | exact Q].
        intros p' P' q' d Q'. apply (place_cwd w w1 b p' C1) in P'. destruct (S1 q') as [X | (_ & _ & X)]; rewrite X; [|discriminate]. apply (F p' (proj2 (place_or w a b p') (or_intror P')) q' d Q').
Qed.
Lemma rmdir_alts keeps u : forall w, wf (top w) -> all_located w u -> exists w', gives (fun f => rmdir f keeps u w) w' /\ wf (top w') /\ cwd w' = cwd w /\
  (forall q, thing_at w' q = thing_at w q \/ ((exists p, place_of w u p /\ at_or_above p q) /\ thing_at w' q = None)) /\
  ((forall q, keeps q = false) -> forall p q, place_of w u p -> p <> [] -> at_or_above p q -> thing_at w' q = None).
Proof.
  assert (BASE : forall u, alts u = [u] -> forall w, wf (top w) -> all_located w u -> exists w', gives (fun f => rmdir f keeps u w) w' /\ wf (top w') /\ cwd w' = cwd w /\
    (forall q, thing_at w' q = thing_at w q \/ ((exists p, place_of w u p /\ at_or_above p q) /\ thing_at w' q = None)) /\
    ((forall q, keeps q = false) -> forall p q, place_of w u p -> p <> [] -> at_or_above p q -> thing_at w' q = None)).
  { clear u. intros u E w W A. destruct (A u) as (p & L); [rewrite E; left; reflexivity|]. assert (PU : place_of w u p) by (exists u; split; [rewrite E; left; reflexivity | exact L]).
    destruct (rmdir_some w u p keeps W L) as (w' & G & W' & C & S). exists w'. split; [exact G|]. split; [exact W'|]. split; [exact C|]. split.
    - intros q. destruct (S q) as [X | (X & Y)]; [left; exact X|]. right. split; [exists p; auto | exact Y].
    - intros K p' q (x & I & L') N Q. rewrite E in I. destruct I as [<- | []]. rewrite (located_fun w u p' p L' L) in *.
      destruct (rmdir_all w u p keeps W L K N) as (w2 & G2 & _ & _ & S2 & _). assert (X := ev_det _ _ _ G G2). injection X as <-. apply S2. exact Q. }
  induction u as [s | | p c | s | a IHa b IHb | a IHa b IHb]; try (apply BASE; reflexivity).
  - intros w W A. exists w. split; [exists 0%nat; reflexivity|]. split; [exact W|]. split; [reflexivity|]. split; [auto|]. intros _ p q (x & [] & _).
  - intros w W A. apply all_or in A as [Aa Ab]. destruct (IHa w W Aa) as (w1 & G1 & W1 & C1 & S1 & M1). destruct (IHb w1 W1 (all_cwd w w1 b C1 Ab)) as (w2 & G2 & W2 & C2 & S2 & M2). exists w2.
    split; [refine (ev_bind (fun f => rmdir f keeps a w) _ _ _ G1 _); exact G2|]. split; [exact W2|]. split; [congruence|]. split.
    + intros q. destruct (S2 q) as [A2 | ((p2 & A2 & Q2) & D2)]; [destruct (S1 q) as [A1 | ((p1 & A1 & Q1) & D1)]; [left; congruence|]|]; right.
      * split; [exists p1; split; [apply place_or; left; exact A1 | exact Q1] | congruence].
      * split; [exists p2; split; [apply place_or; right; exact (place_cwd w w1 b p2 C1 A2) | exact Q2] | exact D2].
    + intros K p q P N Q. apply place_or in P as [P | P].
      * assert (X := M1 K p q P N Q). destruct (S2 q) as [Y | (_ & Y)]; congruence.
      * apply (M2 K) with (p := p); [destruct P as (x & I & L); exists x; split; [exact I | exact (located_cwd w w1 x p C1 L)] | exact N | exact Q].
Qed.
Lemma not_local_read env w u : ~ local_single u -> gives (fun f => read_directory f env w u) ([], false).
Proof. intros N. apply local_single_not in N. unfold read_directory. rewrite N. exists 0%nat. reflexivity. Qed.
Lemma sub_or env w a b x y : gives (fun f => subdirectories f env w a) x -> gives (fun f => subdirectories f env w b) y -> gives (fun f => subdirectories f env w (Or a b)) (uor x y).
Proof. intros A B. apply ev_S. cbn [subdirectories]. refine (ev_bind (fun f => subdirectories f env w a) _ _ _ A _). refine (ev_bind (fun f => subdirectories f env w b) _ _ _ B _). apply ev_const. Qed.
(** All alternatives *)
Lemma sub_alts env w u : wf (top w) -> (forall x, In x (alts u) -> exists p, located w x p /\ Forall ordinary p /\ all_below (fun n => ordinary n /\ no_host n) w p) ->
  exists r, gives (fun f => subdirectories f env w u) r /\ forall y, In y (alts r) <-> exists x p ts, In x (alts u) /\ located w x p /\ Forall (fun t => ~ hidden t) ts /\ extends x ts y /\ thing_at w (p ++ ts) = Some ADir.
Proof.
  intros W. assert (BASE : forall x, alts x = [x] -> (exists p, located w x p /\ Forall ordinary p /\ all_below (fun n => ordinary n /\ no_host n) w p) ->
    exists r, gives (fun f => subdirectories f env w x) r /\ forall y, In y (alts r) <-> exists z p ts, In z (alts x) /\ located w z p /\ Forall (fun t => ~ hidden t) ts /\ extends z ts y /\ thing_at w (p ++ ts) = Some ADir).
  { intros x E (p & L & F & O). destruct (thing_dec w p) as [D | D].
    - destruct (sub_all env w x p W L D F O) as (r & R & Y). exists r. split; [exact R|]. intros y. rewrite Y, E. split.
      + intros (ts & A). exists x, p, ts. split; [left; reflexivity|]. split; [exact L | exact A].
      + intros (z & q & ts & [<- | []] & L' & A). rewrite (located_fun w x q p L' L) in A. exists ts. exact A.
    - exists Nothing. split; [apply (sub_none env w x p L D)|]. intros y. rewrite E. split; [intros []|].
      intros (z & q & ts & [<- | []] & L' & _ & _ & A). rewrite (located_fun w x q p L' L) in A. apply D. apply (thing_above w p (p ++ ts) A). exists ts. reflexivity. }
  induction u as [s | | p c | s | a IHa b IHb | a IHa b IHb]; intros A; try (apply BASE; [reflexivity | apply A; left; reflexivity]).
  { exists Nothing. split; [exists 1%nat; intros [| f] L; [lia | reflexivity]|]. intros y. split; [intros [] | intros (x & p & ts & [] & _)]. }
  destruct IHa as (x & X1 & X2); [intros z I; apply A; cbn [alts]; apply in_or_app; auto|].
  destruct IHb as (y & Y1 & Y2); [intros z I; apply A; cbn [alts]; apply in_or_app; auto|].
  exists (uor x y). split; [apply sub_or; assumption|]. intros z. rewrite uor_in, X2, Y2. cbn [alts]. split.
  - intros [(k & p & ts & I & B) | (k & p & ts & I & B)]; exists k, p, ts; (split; [apply in_or_app; auto | exact B]).
  - intros (k & p & ts & I & B). apply in_app_or in I as [I | I]; [left | right]; exists k, p, ts; auto.
Qed.
Lemma chdir_exact w u p : located w u p -> eventually (fun f => chdir f u w) (match thing_at w p with Some ADir => Ok (Disk (top w) p) | _ => Throw end).
Proof. intros L. assert (G := chdir_gives w u p L). unfold is_adir in G. destruct (thing_at w p) as [[b |] |]; exact G. Qed.
