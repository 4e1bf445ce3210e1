(** Proofs about the expansion of "...". *)
From Coq Require Import Lia.
From Verif Require Import Base Model.Int Model.Str Model.Url Spec.Url Spec.UrlAlt Proofs.StrProofs Proofs.UrlProofs Proofs.UrlAltProofs Proofs.UrlNameProofs.
Local Open Scope Z_scope.

(** Alternatives as | makes them *)
Fixpoint ors (l : list url) : url := match l with [] => Nothing | [x] => x | x :: r => Or x (ors r) end.
Lemma ors_cons x l : l <> [] -> ors (x :: l) = Or x (ors l).
Proof. destruct l; [congruence | reflexivity]. Qed.
Lemma ors_alts l : Forall (fun x => leaf x = true) l -> alts (ors l) = l.
Proof.
  induction 1 as [| x l L F IH]; [reflexivity|]. destruct l as [| y l]; [now apply alts_leaf|]. rewrite ors_cons by discriminate. cbn [alts]. rewrite IH, alts_leaf by exact L. reflexivity.
Qed.
Lemma ors_not_none l : l <> [] -> Forall (fun x => leaf x = true) l -> ors l <> Nothing.
Proof. intros N F. destruct F as [| x l L F]; [congruence|]. destruct l; [|discriminate]. cbn. intros ->. discriminate. Qed.
Lemma uor_ors x y l : leaf x = true -> Forall (fun x => leaf x = true) (y :: l) -> x <> y -> uor x (ors (y :: l)) = ors (x :: y :: l).
Proof.
  intros L F N. rewrite uor_leaf; [| exact L | apply ors_not_none; [discriminate | exact F]]. rewrite (ors_cons x) by discriminate.
  assert (Q : ueqb x (ors (y :: l)) = false).
  { apply ueqb_neq. intros E. destruct l; [now apply N|]. rewrite E in L. discriminate. }
  rewrite Q. destruct l as [| z l].
  - cbn [ors]. inversion F as [| ? ? Ly _]; subst. destruct y; try discriminate; reflexivity.
  - rewrite ors_cons by discriminate. now rewrite (proj2 (ueqb_neq x y) N).
Qed.

(** What may stand in front: a component or a root *)
Definition front (h : url) : Prop := named h \/ a_root h.
Lemma front_shape h : front h -> is_or h = false /\ is_concat h = false /\ leaf h = true /\ h <> dots.
Proof.
  intros [[[[(s & -> & A & B) | (s & ->)] _] N] | (p & c & ->)]; repeat split; try assumption; discriminate.
Qed.
Lemma front_rooted h cs : front h -> cs <> [] -> rooted h cs = Concat h (path cs).
Proof. destruct cs; [congruence | reflexivity]. Qed.
Lemma rooted_leaf h cs : front h -> leaf (rooted h cs) = true.
Proof. intros F. destruct cs; [now apply front_shape | reflexivity]. Qed.
Lemma front_rooted_inj h a b : front h -> Forall component a -> Forall component b -> rooted h a = rooted h b -> a = b.
Proof.
  intros F A B E. destruct (front_shape h F) as (_ & C & _). destruct a as [| x a], b as [| y b]; cbn [rooted] in E; [reflexivity| | |].
  - rewrite E in C. discriminate.
  - rewrite <- E in C. discriminate.
  - injection E as E. now apply path_inj.
Qed.
Lemma named_component cs : Forall named cs -> Forall component cs.
Proof. intros F. eapply Forall_impl; [|exact F]. intros a [[H _] _]. exact H. Qed.
Lemma named_proper cs : Forall named cs -> Forall proper cs.
Proof. intros F. eapply Forall_impl; [|exact F]. intros a [H _]. exact H. Qed.
Lemma dots_proper : proper dots.
Proof. split; [left; exists (lit "..."); repeat split; discriminate | discriminate]. Qed.
Lemma front_mul h b : front h -> Forall proper b -> yields h (path b) (Ok (rooted h b)).
Proof.
  intros F P. pose proof (comps_pieces b (proper_comp b P)) as Q. destruct F as [[[C _] _] | (p & c & ->)].
  - replace (rooted h b) with (path (enter h b)); [now apply mul_comp|]. destruct b as [| x b]; [reflexivity|]. cbn [enter].
    rewrite (proper_up x) by (now inversion P). reflexivity.
  - rewrite <- (proper_no_ups b P) at 2. now apply mul_root.
Qed.
Lemma dots_mul b : Forall proper b -> yields dots (path b) (Ok (path (dots :: b))).
Proof.
  intros P. replace (path (dots :: b)) with (path (enter dots b)); [apply mul_comp; [apply dots_proper | now apply comps_pieces, proper_comp]|].
  destruct b as [| x b]; [reflexivity|]. cbn [enter]. rewrite (proper_up x) by (now inversion P). reflexivity.
Qed.
Lemma named_fine cs : Forall named cs -> cs <> [] -> fine (path cs) = true /\ is_or (path cs) = false.
Proof.
  induction 1 as [| c cs [[C _] N] F IH]; [congruence|]. intros _.
  assert (Fc : fine c = true).
  { destruct C as [(s & -> & _) | (s & ->)]; [|reflexivity]. cbn [fine]. apply Bool.negb_true_iff. destruct (seqb s (lit "...")) eqn:E; [|reflexivity].
    apply seqb_eq in E. subst s. now destruct N. }
  destruct cs as [| d cs]; [split; [exact Fc|]; destruct C as [(s & -> & _) | (s & ->)]; reflexivity|].
  rewrite path_cons by discriminate. cbn [fine is_or]. rewrite Fc. destruct (IH ltac:(discriminate)) as [-> _]. auto.
Qed.
(** expand2 with a front on the left *)
Lemma expand2_mul h b : front h \/ h = dots -> Forall named b -> b <> [] -> eventually (fun f => expand2 f h (path b)) (Ok (rooted h b)).
Proof.
  intros F N B. destruct (named_fine b N B) as [Fb Ob]. apply ev_S. apply (ev_ext (fun f => mul (S f) h (path b))).
  - intros f. symmetry. apply expand2_single; [| exact Ob | exact Fb]. destruct F as [F | ->]; [now apply front_shape | reflexivity].
  - assert (Y : yields h (path b) (Ok (rooted h b))).
    { destruct F as [F | ->]; [apply front_mul; [exact F | now apply named_proper]|]. replace (rooted dots b) with (path (dots :: b)) by (destruct b; reflexivity). now apply dots_mul, named_proper. }
    destruct Y as (n & Y). exists n. intros f L. apply Y. lia.
Qed.
Lemma expand2_or_r f h a b : is_or h = false -> expand2 (S f) h (Or a b) = let* r := expand2 f h a in let* s := expand2 f h b in Ok (uor r s).
Proof. destruct h; try discriminate; reflexivity. Qed.
Lemma ev_or_r h a b r s : is_or h = false -> eventually (fun f => expand2 f h a) (Ok r) -> eventually (fun f => expand2 f h b) (Ok s) ->
  eventually (fun f => expand2 f h (Or a b)) (Ok (uor r s)).
Proof.
  intros O A B. apply ev_S. apply (ev_ext (fun f => let* r := expand2 f h a in let* s := expand2 f h b in Ok (uor r s))); [intros f; now rewrite expand2_or_r|].
  eapply (ev_bind (fun f => expand2 f h a) (fun f r => let* s := expand2 f h b in Ok (uor r s))); [exact A|].
  eapply (ev_bind (fun f => expand2 f h b) (fun f s => Ok (uor r s))); [exact B | apply ev_const].
Qed.
Lemma expand2_dots h : front h -> eventually (fun f => expand2 f h dots) (Ok (if is_special_root h then dots else Or h dots)).
Proof.
  intros F. destruct (front_shape h F) as (O & C & L & N). exists 1%nat. intros [| f] H; [lia|].
  assert (U : uor h dots = Or h dots) by (apply (uor_ors h dots []); [exact L | now repeat constructor | exact N]).
  destruct h; try discriminate; cbn [expand2]; change (is_ancestor dots) with true; cbn iota; rewrite ?U; try reflexivity; destruct (is_special_root _); now rewrite ?U.
Qed.
Definition above (h : url) (ds : list url) : list url := (if is_special_root h then [] else [rooted h ds]) ++ [path (dots :: ds)].
Lemma rooted_not_dots h a b : front h -> rooted h a <> path (dots :: b).
Proof.
  intros F E. destruct (front_shape h F) as (_ & C & _ & N). destruct a, b; cbn in E; subst; try discriminate; try (now apply N). injection E as -> _. now apply N.
Qed.
Lemma expand2_above h ds : front h -> Forall named ds -> eventually (fun f => expand2 f h (path (dots :: ds))) (Ok (ors (above h ds))).
Proof.
  intros F D. pose proof (expand2_dots h F) as E. destruct (front_shape h F) as (O & C & L & N). unfold above. destruct ds as [| d ds].
  - cbn [path rooted]. destruct (is_special_root h); exact E.
  - rewrite path_cons by discriminate. remember (d :: ds) as ds' eqn:Q. assert (B : ds' <> []) by (subst; discriminate).
    apply ev_S. apply (ev_ext (fun f => let* r := expand2 f h dots in expand2 f r (path ds'))).
    { intros f. destruct h; try discriminate; reflexivity. }
    eapply (ev_bind (fun f => expand2 f h dots) (fun f r => expand2 f r (path ds'))); [exact E|].
    pose proof (expand2_mul dots ds' (or_intror eq_refl) D B) as Ed. destruct (is_special_root h).
    + subst ds'. exact Ed.
    + pose proof (expand2_mul h ds' (or_introl F) D B) as Eh. apply ev_S.
      apply (ev_ext (fun f => let* r := expand2 f h (path ds') in let* s := expand2 f dots (path ds') in Ok (uor r s))); [reflexivity|].
      eapply (ev_bind (fun f => expand2 f h (path ds')) (fun f r => let* s := expand2 f dots (path ds') in Ok (uor r s))); [exact Eh|].
      eapply (ev_bind (fun f => expand2 f dots (path ds')) (fun f s => Ok (uor (rooted h ds') s))); [exact Ed|].
      replace (uor (rooted h ds') (rooted dots ds')) with (ors ([rooted h ds'] ++ [Concat dots (path ds')])); [apply ev_const|].
      replace (rooted dots ds') with (Concat dots (path ds')) by (subst; reflexivity). symmetry.
      apply (uor_ors (rooted h ds') (Concat dots (path ds')) []); [now apply rooted_leaf | now repeat constructor|].
      replace (Concat dots (path ds')) with (path (dots :: ds')) by (subst; reflexivity). now apply rooted_not_dots.
Qed.
(** Names that get shorter *)
Fixpoint shrinking (H : list (list url)) : Prop :=
  match H with [] => True | p :: H' => p <> [] /\ (forall q, In q H' -> length q < length p)%nat /\ shrinking H' end.
Lemma heads_in cs : forall p, In p (heads cs) -> p <> [] /\ (length p <= length cs)%nat /\ (forall P : url -> Prop, Forall P cs -> Forall P p).
Proof.
  induction cs as [| c cs IH]; [intros p []|]. intros p I. cbn [heads] in I. apply in_app_or in I as [I | [<- | []]].
  - apply in_map_iff in I as (q & <- & I). destruct (IH q I) as (A & B & C). split; [discriminate|]. cbn. split; [lia|]. intros P F. inversion F; subst. auto.
  - split; [discriminate|]. cbn. split; [lia|]. intros P F. inversion F; subst. auto.
Qed.
Lemma heads_shrinking cs : shrinking (heads cs).
Proof.
  induction cs as [| c cs IH]; [exact I|]. cbn [heads].
  assert (G : forall H, shrinking H -> shrinking (map (cons c) H ++ [[c]])).
  { clear. induction H as [| p H IH]; intros S; cbn; [split; [discriminate|]; split; [intros q []|]; exact I|]. destruct S as (N & L & S). split; [discriminate|]. split; [|now apply IH].
    intros q Q. apply in_app_or in Q as [Q | [<- | []]]; [|destruct p; [congruence | cbn; lia]]. apply in_map_iff in Q as (r & <- & Q). specialize (L r Q). cbn. lia. }
  now apply G.
Qed.
Lemma expand2_heads h ds : front h -> Forall named ds -> forall H, shrinking H -> (forall p, In p H -> Forall named p) ->
  eventually (fun f => expand2 f h (ors (map (fun p => path (p ++ ds)) H ++ [path (dots :: ds)]))) (Ok (ors (map (fun p => rooted h (p ++ ds)) H ++ above h ds))).
Proof.
  intros F D. destruct (front_shape h F) as (O & _). induction H as [| p H IH]; intros S P; [now apply expand2_above|]. destruct S as (N & L & S). cbn [map app].
  rewrite ors_cons by (destruct H; discriminate). assert (Np : Forall named (p ++ ds)) by (apply Forall_app; split; [apply P; now left | exact D]).
  assert (B : p ++ ds <> []) by (destruct p; [congruence | discriminate]).
  assert (E : ors (rooted h (p ++ ds) :: map (fun p => rooted h (p ++ ds)) H ++ above h ds) = uor (rooted h (p ++ ds)) (ors (map (fun p => rooted h (p ++ ds)) H ++ above h ds))).
  { symmetry. assert (X : Forall (fun x => leaf x = true) (map (fun p => rooted h (p ++ ds)) H ++ above h ds)).
    { apply Forall_app. split; [apply Forall_forall; intros x I; apply in_map_iff in I as (q & <- & _); now apply rooted_leaf|]. unfold above. apply Forall_app. split.
      - destruct (is_special_root h); constructor; [now apply rooted_leaf | constructor].
      - constructor; [destruct ds; reflexivity | constructor]. }
    assert (Y : forall q, Forall named q -> (length q < length p)%nat -> rooted h (p ++ ds) <> rooted h (q ++ ds)).
    { intros q Q Lq E. apply front_rooted_inj in E; [| exact F | now apply named_component | apply named_component, Forall_app; split; assumption].
      apply (f_equal (@length url)) in E. rewrite !app_length in E. lia. }
    destruct H as [| q H].
    - cbn [map app] in *. unfold above in *. destruct (is_special_root h); cbn [app] in *; apply uor_ors; try (now apply rooted_leaf); try exact X.
      + now apply rooted_not_dots.
      + apply (Y []); [constructor | destruct p; [congruence | cbn; lia]].
    - cbn [map app] in *. apply uor_ors; [now apply rooted_leaf | exact X|]. apply Y; [apply P; right; now left | apply L; now left]. }
  rewrite E. apply ev_or_r; [exact O | now apply expand2_mul; [left|..] | apply IH; [exact S | intros q Q; apply P; now right]].
Qed.
Lemma expand_named ds : Forall named ds -> ds <> [] -> eventually (fun f => expand f (path ds)) (Ok (path ds)).
Proof.
  induction 1 as [| d ds Nd D IH]; [congruence|]. intros _. destruct ds as [| e ds].
  - exists O. intros f _. destruct Nd as [[[(s & -> & _) | (s & ->)] _] _]; reflexivity.
  - rewrite path_cons by discriminate. remember (e :: ds) as ds' eqn:Q. assert (B : ds' <> []) by (subst; discriminate). cbn [expand].
    assert (Ed : eventually (fun f => expand f d) (Ok d)) by (exists O; intros f _; destruct Nd as [[[(s & -> & _) | (s & ->)] _] _]; reflexivity).
    eapply (ev_bind (fun f => expand f d) (fun f r => let* s := expand f (path ds') in expand2 f r s)); [exact Ed|].
    eapply (ev_bind (fun f => expand f (path ds')) (fun f s => expand2 f d s)); [exact (IH B)|].
    pose proof (expand2_mul d ds' (or_introl (or_introl Nd)) D B) as X. subst ds'. exact X.
Qed.
Lemma expand_front h u s r : front h -> eventually (fun f => expand f u) (Ok s) -> eventually (fun f => expand2 f h s) (Ok r) -> eventually (fun f => expand f (Concat h u)) (Ok r).
Proof.
  intros F E X. cbn [expand]. assert (Eh : eventually (fun f => expand f h) (Ok h)) by (exists O; intros f _; destruct F as [[[[(t & -> & _) | (t & ->)] _] _] | (p & c & ->)]; reflexivity).
  eapply (ev_bind (fun f => expand f h) (fun f r => let* s := expand f u in expand2 f r s)); [exact Eh|].
  eapply (ev_bind (fun f => expand f u) (fun f s => expand2 f h s)); [exact E | exact X].
Qed.
Lemma expand_heads ds cs : Forall named ds -> Forall named cs ->
  eventually (fun f => expand f (path (cs ++ dots :: ds))) (Ok (ors (map (fun p => path (p ++ ds)) (heads cs) ++ [path (dots :: ds)]))).
Proof.
  intros D. induction 1 as [| c cs Nc C IH].
  - cbn [app heads map ors]. destruct ds as [| d ds]; [exists O; reflexivity|]. rewrite path_cons by discriminate. cbn [expand].
    eapply (ev_bind (fun f => Ok dots) (fun f r => let* s := expand f (path (d :: ds)) in expand2 f r s)); [apply ev_const|].
    eapply (ev_bind (fun f => expand f (path (d :: ds))) (fun f s => expand2 f dots s)); [apply expand_named; [exact D | discriminate]|].
    apply (expand2_mul dots (d :: ds)); [now right | exact D | discriminate].
  - cbn [app]. rewrite path_cons by (destruct cs; discriminate). eapply expand_front; [now left | exact IH|].
    pose proof (expand2_heads c ds (or_introl Nc) D (heads cs) (heads_shrinking cs)) as X.
    assert (Q : forall p, In p (heads cs) -> Forall named p) by (intros p I; now apply (heads_in cs p I)). specialize (X Q).
    assert (E : map (fun p => rooted c (p ++ ds)) (heads cs) ++ above c ds = map (fun p => path (p ++ ds)) (heads (c :: cs)) ++ [path (dots :: ds)]).
    { cbn [heads]. rewrite map_app, map_map, <- app_assoc. unfold above.
      assert (S : is_special_root c = false) by (destruct Nc as [[[(s & -> & _) | (s & ->)] _] _]; reflexivity). rewrite S. cbn [map app]. reflexivity. }
    rewrite <- E. exact X.
Qed.
Lemma expand_above cs ds : Forall named cs -> Forall named ds ->
  exists r, eventually (fun f => expand f (path (cs ++ dots :: ds))) (Ok r) /\ alts r = map (fun p => path (p ++ ds)) (heads cs) ++ [path (dots :: ds)].
Proof.
  intros C D. eexists. split; [exact (expand_heads ds cs D C)|]. apply ors_alts. apply Forall_app. split; [|constructor; [destruct ds; reflexivity | constructor]].
  apply Forall_forall. intros x I. apply in_map_iff in I as (p & <- & I). destruct (heads_in cs p I) as (N & _ & P). destruct p as [| c p]; [congruence|].
  assert (Nc : named c) by (specialize (P named C); now inversion P). change ((c :: p) ++ ds) with (c :: (p ++ ds)).
  replace (path (c :: p ++ ds)) with (rooted c (p ++ ds)) by (destruct (p ++ ds); reflexivity). apply rooted_leaf. now left.
Qed.
Lemma expand_above_root h cs ds : a_root h -> Forall named cs -> Forall named ds ->
  exists r, eventually (fun f => expand f (rooted h (cs ++ dots :: ds))) (Ok r)
    /\ alts r = map (fun p => rooted h (p ++ ds)) (heads cs) ++ (if is_root_web h then [] else [rooted h ds]) ++ [path (dots :: ds)].
Proof.
  intros R C D. assert (F : front h) by (now right). eexists. split.
  - rewrite front_rooted by (try exact F; destruct cs; discriminate). eapply expand_front; [exact F | exact (expand_heads ds cs D C)|].
    apply expand2_heads; [exact F | exact D | apply heads_shrinking|]. intros p I. now apply (heads_in cs p I).
  - apply ors_alts. apply Forall_app. split; [apply Forall_forall; intros x I; apply in_map_iff in I as (p & <- & _); now apply rooted_leaf|]. unfold above. apply Forall_app. split.
    + destruct (is_root_web h); constructor; [now apply rooted_leaf | constructor].
    + constructor; [destruct ds; reflexivity | constructor].
Qed.
Lemma expand_above_left : exists r, expand 9 (Concat (Or (path [Atom (lit "a"); Atom (lit "b"); Atom (lit "c")]) (Atom (lit "d"))) dots) = Ok r
  /\ alts r = [path [Atom (lit "a"); Atom (lit "b"); Atom (lit "c")]; Atom (lit "a"); dots; Atom (lit "d"); dots].
Proof. eexists. split; reflexivity. Qed.
