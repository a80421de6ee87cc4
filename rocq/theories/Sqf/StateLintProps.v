(** Reserved variables (C72) and updates of markers (C73). *)
From Coq Require Import String.
From Verif Require Import Base.Tactics Base.Bytes Base.Ascii Base.Text Base.Sort Sqf.Ast Sqf.StateLintModel Sqf.StateLintSpec.
Local Open Scope N_scope.
Local Open Scope list_scope.

Section Map.
  Context {V : Type}.
  Lemma get_in : forall (m : list (text * V)) k v, map_get m k = Some v -> In (k, v) m.
  Proof.
    intros m k v H. unfold map_get in H. destruct (find _ m) as [(k', v')|] eqn:E; [|discriminate]. injection H as <-. apply find_some in E as (E & H). apply eqb_bytes_spec in H. cbn [fst snd] in *. now subst.
  Qed.
  Lemma get_none : forall (m : list (text * V)) k, map_get m k = None <-> forall v, ~ In (k, v) m.
  Proof.
    intros m k. unfold map_get. destruct (find _ m) as [(k', v')|] eqn:E.
    - apply find_some in E as (E & H). apply eqb_bytes_spec in H. cbn [fst snd option_map] in *. subst. split; [discriminate|]. intros H. now destruct (H v').
    - split; [|reflexivity]. intros _ v Hi. apply (find_none _ _ E) in Hi. cbn [fst] in Hi. assert (X : eqb_bytes k k = true) by now apply eqb_bytes_spec. congruence.
  Qed.
  Lemma in_remove : forall (m : list (text * V)) k k' v, In (k', v) (map_remove m k) <-> In (k', v) m /\ k' <> k.
  Proof.
    intros m k k' v. unfold map_remove. rewrite filter_In. cbn [fst]. split; intros (H & E); (split; [exact H|]).
    - intros ->. assert (X : eqb_bytes k k = true) by now apply eqb_bytes_spec. rewrite X in E. discriminate.
    - destruct (eqb_bytes k' k) eqn:X; [apply eqb_bytes_spec in X; contradiction|reflexivity].
  Qed.
  Lemma in_insert : forall (m : list (text * V)) k v k' v', In (k', v') (map_insert m k v) <-> In (k', v') m /\ k' <> k \/ k' = k /\ v' = v.
  Proof.
    intros m k v k' v'. unfold map_insert. rewrite in_app_iff, in_remove. cbn [In]. split; [intros [H|[H|[]]]; [auto|injection H as -> ->; auto]|]. intros [H|(-> & ->)]; auto.
  Qed.
  Lemma nodup_remove : forall (m : list (text * V)) k, NoDup (map fst m) -> NoDup (map fst (map_remove m k)).
  Proof.
    intros m k. unfold map_remove. induction m as [|(a, v) m IH]; [auto|]. cbn [map fst filter]. intros H. inversion H as [|? ? Hn Hd]; subst. specialize (IH Hd).
    destruct (eqb_bytes a k); cbn [negb]; [exact IH|]. cbn [map fst]. constructor; [|exact IH]. intros Hi. apply Hn. apply in_map_iff in Hi as ((a', v') & <- & Hi). apply filter_In in Hi as (Hi & _). apply in_map_iff. eauto.
  Qed.
  Lemma nodup_insert : forall (m : list (text * V)) k v, NoDup (map fst m) -> NoDup (map fst (map_insert m k v)).
  Proof.
    intros m k v H. unfold map_insert. rewrite map_app.
    assert (P : Permutation (map fst [(k, v)] ++ map fst (map_remove m k)) (map fst (map_remove m k) ++ map fst [(k, v)])) by apply Permutation_app_comm.
    apply (Permutation_NoDup P). cbn [map fst app]. constructor; [|now apply nodup_remove]. intros Hi. apply in_map_iff in Hi as ((a & b) & E & Hi). cbn [fst] in E. subst a. apply in_remove in Hi. tauto.
  Qed.
  Lemma get_some : forall (m : list (text * V)) k v, NoDup (map fst m) -> (map_get m k = Some v <-> In (k, v) m).
  Proof.
    intros m k v D. split; [apply get_in|]. intros H. destruct (map_get m k) as [v'|] eqn:E.
    - apply get_in in E. f_equal. clear - D E H. induction m as [|(a, b) m IH]; [destruct H|]. cbn [map fst] in D. inversion D as [|? ? Hn Hd]; subst.
      destruct H as [H|H], E as [E|E].
      + congruence.
      + injection H as -> ->. exfalso. apply Hn. apply in_map_iff. exists (k, v'). auto.
      + injection E as -> ->. exfalso. apply Hn. apply in_map_iff. exists (k, v). auto.
      + now apply IH.
    - exfalso. apply (proj1 (get_none m k) E v H).
  Qed.
End Map.

(** ** C72 *)
Lemma reserved_spec : forall n, is_reserved n = true <-> reserved n.
Proof.
  intros n. unfold is_reserved. rewrite existsb_exists. split.
  - intros (x & Hx & E). apply eqb_bytes_spec in E. subst. exact Hx.
  - intros H. exists n. split; [exact H|]. now apply eqb_bytes_spec.
Qed.
Lemma assigns_fun : forall s x e sp x' e' sp', assigns s x e sp -> assigns s x' e' sp' -> x = x' /\ e = e' /\ sp = sp'.
Proof. intros s x e sp x' e' sp' [->| ->] [H|H]; try discriminate; injection H as -> -> ->; auto. Qed.
Lemma stmt_cases : forall s, (exists e sp, s = SExpr e sp) \/ exists x e sp, assigns s x e sp.
Proof. intros [x e sp|x e sp|e sp]; [right; exists x, e, sp; now left|right; exists x, e, sp; now right|left; eauto]. Qed.

(** One step on an assignment, in the order of its tests. *)
Lemma step_cases : forall st s x e sp, assigns s x e sp ->
  (exists o ssp, just_saved st = Some (x, o, ssp) /\ reserved_step st s = Restoring None (map_insert (need_to_restore st) o (x, sp, ssp)) (codes st)) \/
  ((forall o ssp, just_saved st <> Some (x, o, ssp)) /\ exists more, (more = [] \/ exists ch o ssp, more = [SavedWhileSaved x sp ch o ssp]) /\
    ((exists r p v, e = EVar r p /\ map_get (need_to_restore st) r = Some v /\ reserved_step st s = Restoring (just_saved st) (map_remove (need_to_restore st) r) (codes st ++ more)) \/
     ((forall r p, e = EVar r p -> map_get (need_to_restore st) r = None) /\
       (reserved x /\ reserved_step st s = Restoring (just_saved st) (need_to_restore st) ((codes st ++ more) ++ [Overwrite x sp]) \/
        ~ reserved x /\ (exists r p, e = EVar r p /\ reserved r /\ reserved_step st s = Restoring (Some (r, x, p)) (need_to_restore st) (codes st ++ more)) \/
        ~ reserved x /\ (forall r p, e = EVar r p -> ~ reserved r) /\ reserved_step st s = Restoring (just_saved st) (need_to_restore st) (codes st ++ more))))).
Proof.
  intros st s x e sp Hs.
  assert (E : reserved_step st s = reserved_step st (SGlobal x e sp)) by (destruct Hs as [->| ->]; reflexivity). rewrite E. clear E Hs s. cbn [reserved_step].
  destruct (match just_saved st with Some (saved, original, ssp) => if eqb_bytes saved x then Some (saved, original, ssp) else None | None => None end) as [((saved, o), ssp)|] eqn:J.
  - left. destruct (just_saved st) as [((saved', o'), ssp')|]; [|discriminate]. destruct (eqb_bytes saved' x) eqn:Ex; [|discriminate]. injection J as -> -> ->. apply eqb_bytes_spec in Ex. subst saved. eauto.
  - right. split.
    { intros o ssp Hj. rewrite Hj in J. assert (X : eqb_bytes x x = true) by now apply eqb_bytes_spec. rewrite X in J. discriminate. }
    assert (M : exists more, (more = [] \/ exists ch o ssp, more = [SavedWhileSaved x sp ch o ssp]) /\
      match map_get (need_to_restore st) x with Some (saved, original_save, ssp) => codes st ++ [SavedWhileSaved x sp original_save saved ssp] | None => codes st end = codes st ++ more).
    { destruct (map_get (need_to_restore st) x) as [((a, b), c)|]; [exists [SavedWhileSaved x sp b a c]; split; [right; eauto|reflexivity]|exists []; split; [auto|now rewrite app_nil_r]]. }
    destruct M as (more & Hm & ->). exists more. split; [exact Hm|].
    destruct (match e with EVar r _ => match map_get (need_to_restore st) r with Some _ => Some r | None => None end | _ => None end) as [r|] eqn:R.
    + left. destruct e; try discriminate. destruct (map_get (need_to_restore st) name) as [v|] eqn:G; [|discriminate]. injection R as ->. eauto 8.
    + right. split. { intros r p ->. destruct (map_get (need_to_restore st) r); [discriminate|reflexivity]. }
      destruct (is_reserved x) eqn:X; [left; split; [now apply reserved_spec|reflexivity]|right]. assert (Nx : ~ reserved x) by (rewrite <- reserved_spec; congruence).
      destruct e; try (right; split; [exact Nx|]; split; [intros; discriminate|reflexivity]). destruct (is_reserved name) eqn:Y.
      * left. split; [exact Nx|]. exists name, sp0. split; [reflexivity|]. split; [now apply reserved_spec|reflexivity].
      * right. split; [exact Nx|]. split; [|reflexivity]. intros r p [= -> ->]. rewrite <- reserved_spec. congruence.
Qed.
Definition run23 (c : list stmt) : restoring := fold_left reserved_step c reserved_start.
Lemma run_snoc : forall c s, run23 (c ++ [s]) = reserved_step (run23 c) s.
Proof. intros c s. unfold run23. now rewrite fold_left_app. Qed.
Lemma codes_grow : forall st s, exists l, codes (reserved_step st s) = codes st ++ l.
Proof.
  intros st s. destruct (stmt_cases s) as [(e & sp & ->)|(x & e & sp & H)]; [exists []; cbn; now rewrite app_nil_r|].
  destruct (step_cases st s x e sp H) as [(o & ssp & _ & ->)|(_ & more & _ & [(r & p & v & _ & _ & ->)|(_ & [(_ & ->)|[(_ & r & p & _ & _ & ->)|(_ & _ & ->)]])])]; cbn [codes];
    try (eexists; reflexivity); [exists []; now rewrite app_nil_r|rewrite <- app_assoc; eexists; reflexivity].
Qed.
Lemma codes_kept : forall c2 c1 k, In k (codes (run23 c1)) -> In k (codes (run23 (c1 ++ c2))).
Proof.
  induction c2 as [|s c2 IH]; intros c1 k H; [now rewrite app_nil_r|]. replace (c1 ++ s :: c2) with ((c1 ++ [s]) ++ c2) by (rewrite <- app_assoc; reflexivity). apply IH. rewrite run_snoc.
  destruct (codes_grow (run23 c1) s) as (l & ->). apply in_app_iff. now left.
Qed.
(** What is remembered was saved. *)
Lemma remembered : forall c, (forall r x p, just_saved (run23 c) = Some (r, x, p) -> exists s, In s c /\ saves s x r) /\
  (forall k r a b, In (k, (r, a, b)) (need_to_restore (run23 c)) -> exists s, In s c /\ saves s k r).
Proof.
  induction c as [|s c IH] using rev_ind; [split; [discriminate|intros k r a b []]|]. destruct IH as (IJ & IN). rewrite run_snoc.
  assert (W : forall k r, (exists t, In t c /\ saves t k r) -> exists t, In t (c ++ [s]) /\ saves t k r) by (intros k r (t & Ht & H); exists t; split; [apply in_app_iff; now left|exact H]).
  destruct (stmt_cases s) as [(e & sp & ->)|(x & e & sp & H)].
  - cbn [reserved_step just_saved need_to_restore]. split; [discriminate|]. intros k r a b Hk. eauto.
  - destruct (step_cases (run23 c) s x e sp H) as [(o & ssp & J & ->)|(_ & more & _ & [(r & p & v & _ & _ & ->)|(_ & [(_ & ->)|[(Nx & r & p & -> & R & ->)|(_ & _ & ->)]])])]; cbn [just_saved need_to_restore].
    + split; [discriminate|]. intros k r a b Hk. apply in_insert in Hk as [(Hk & _)|(-> & Hk)]; [eauto|]. injection Hk as -> -> ->. eauto.
    + split; [intros; eauto|]. intros k r' a b Hk. apply in_remove in Hk as (Hk & _). eauto.
    + split; intros; eauto.
    + split; [|intros; eauto]. intros r' x' p' [= <- <- <-]. exists s. split; [apply in_app_iff; right; now left|]. split; [exact R|]. split; [exact Nx|]. eauto.
    + split; intros; eauto.
Qed.

(** Only assignments to reserved variables are reported as such. *)
Theorem C72_overwrites_are_overwrites : forall c x sp, In (Overwrite x sp) (s23 c) -> reserved x /\ exists s e, In s c /\ assigns s x e sp.
Proof.
  intros c x sp H. unfold s23 in H. apply in_app_iff in H as [H|H].
  2:{ apply in_map_iff in H as (p & H & _). discriminate. }
  change (fold_left reserved_step c reserved_start) with (run23 c) in H. induction c as [|s c IH] using rev_ind; [destruct H|]. rewrite run_snoc in H.
  assert (Old : In (Overwrite x sp) (codes (run23 c)) -> reserved x /\ exists t e, In t (c ++ [s]) /\ assigns t x e sp).
  { intros Ho. destruct (IH Ho) as (R & t & e & Ht & A). split; [exact R|]. exists t, e. split; [apply in_app_iff; now left|exact A]. }
  destruct (stmt_cases s) as [(e & q & ->)|(y & e & q & A)]; [now apply Old|].
  destruct (step_cases (run23 c) s y e q A) as [(o & ssp & _ & E)|(_ & more & Hm & [(r & p & v & _ & _ & E)|(_ & [(R & E)|[(_ & r & p & _ & _ & E)|(_ & _ & E)]])])]; rewrite E in H; cbn [codes] in H.
  - now apply Old.
  - apply in_app_iff in H as [H|H]; [now apply Old|]. destruct Hm as [->|(ch & o & ssp & ->)]; [destruct H|]. destruct H as [H|[]]. discriminate.
  - apply in_app_iff in H as [H|[H|[]]].
    + apply in_app_iff in H as [H|H]; [now apply Old|]. destruct Hm as [->|(ch & o & ssp & ->)]; [destruct H|]. destruct H as [H|[]]. discriminate.
    + injection H as -> ->. split; [exact R|]. exists s, e. split; [apply in_app_iff; right; now left|exact A].
  - apply in_app_iff in H as [H|H]; [now apply Old|]. destruct Hm as [->|(ch & o & ssp & ->)]; [destruct H|]. destruct H as [H|[]]. discriminate.
  - apply in_app_iff in H as [H|H]; [now apply Old|]. destruct Hm as [->|(ch & o & ssp & ->)]; [destruct H|]. destruct H as [H|[]]. discriminate.
Qed.
(** Every assignment to a reserved variable is reported, unless a statement before it saved that variable, or saved one in the
    variable that it is assigned from. *)
Theorem C72_overwrites_are_reported : forall c1 s c2 x e sp, reserved x -> assigns s x e sp ->
  (forall t y, In t c1 -> ~ saves t y x) -> (forall t y p r, In t c1 -> e = EVar y p -> ~ saves t y r) -> In (Overwrite x sp) (s23 (c1 ++ s :: c2)).
Proof.
  intros c1 s c2 x e sp R A N1 N2. unfold s23. apply in_app_iff. left. change (In (Overwrite x sp) (codes (run23 (c1 ++ s :: c2)))).
  replace (c1 ++ s :: c2) with ((c1 ++ [s]) ++ c2) by (rewrite <- app_assoc; reflexivity). apply codes_kept. rewrite run_snoc. destruct (remembered c1) as (IJ & IN).
  destruct (step_cases (run23 c1) s x e sp A) as [(o & ssp & J & _)|(_ & more & _ & [(r & p & v & -> & G & _)|(_ & [(_ & ->)|[(Nx & _)|(Nx & _)]])])]; try contradiction.
  - apply IJ in J as (t & Ht & Hs). now destruct (N1 t o Ht).
  - apply get_in in G. destruct v as ((a, b), d). apply IN in G as (t & Ht & Hs). now destruct (N2 t r p a Ht eq_refl).
  - cbn [codes]. apply in_app_iff. right. now left.
Qed.
(** A variable that is saved and then changed, and whose saved value is never assigned to anything, is reported as never restored. *)
Theorem C72_never_restored : forall c1 s1 s2 c2 x r e sp, saves s1 x r -> assigns s2 r e sp -> (forall s y p q, In s c2 -> ~ assigns s y (EVar x p) q) ->
  exists q o p, In (NeverRestored x q o p) (s23 (c1 ++ s1 :: s2 :: c2)).
Proof.
  intros c1 s1 s2 c2 x r e sp S A N.
  assert (K : exists v, In (x, v) (need_to_restore (run23 (c1 ++ s1 :: s2 :: c2)))).
  2:{ destruct K as (((o, q), p) & K). exists q, o, p. unfold s23. apply in_app_iff. right. apply in_map_iff. exists (x, (o, q, p)). split; [reflexivity|exact K]. }
  destruct (remembered c1) as (IJ & IN). destruct S as (R & Nx & p & q & A1).
  assert (E1 : exists p', just_saved (run23 (c1 ++ [s1])) = Some (r, x, p')).
  { rewrite run_snoc. destruct (step_cases (run23 c1) s1 x (EVar r p) q A1) as [(o & ssp & J & _)|(_ & more & _ & [(r' & p' & v & E & G & _)|(_ & [(Rx & _)|[(_ & r' & p' & E & _ & ->)|(_ & Nr & _)]])])].
    - apply IJ in J as (t & _ & (Rx & _)). contradiction.
    - injection E as <- <-. apply get_in in G. destruct v as ((a, b), d). apply IN in G as (t & _ & (_ & Nr & _)). contradiction.
    - contradiction.
    - injection E as <- <-. eexists. reflexivity.
    - exfalso. exact (Nr r p eq_refl R). }
  destruct E1 as (p' & E1).
  assert (E2 : exists v, In (x, v) (need_to_restore (run23 (c1 ++ [s1; s2])))).
  { replace (c1 ++ [s1; s2]) with ((c1 ++ [s1]) ++ [s2]) by (rewrite <- app_assoc; reflexivity). rewrite run_snoc.
    destruct (step_cases (run23 (c1 ++ [s1])) s2 r e sp A) as [(o & ssp & J & ->)|(J & _)]; [|now destruct (J x p')]. rewrite E1 in J. injection J as <- <-. cbn [need_to_restore]. eexists. apply in_insert. right. split; reflexivity. }
  clear - E2 N. replace (c1 ++ s1 :: s2 :: c2) with ((c1 ++ [s1; s2]) ++ c2) by (rewrite <- app_assoc; reflexivity). revert E2 N. generalize (c1 ++ [s1; s2]) as c. intros c.
  revert c. induction c2 as [|s c2 IH]; intros c E2 N; [now rewrite app_nil_r|]. replace (c ++ s :: c2) with ((c ++ [s]) ++ c2) by (rewrite <- app_assoc; reflexivity). apply IH.
  - rewrite run_snoc. destruct E2 as (v & E2). destruct (stmt_cases s) as [(e & sp & ->)|(y & e & sp & A)]; [eexists; exact E2|].
    destruct (step_cases (run23 c) s y e sp A) as [(o & ssp & J & ->)|(_ & more & _ & [(r & p & w & -> & G & ->)|(_ & [(R & ->)|[(_ & r & p & _ & _ & ->)|(_ & _ & ->)]])])]; cbn [need_to_restore]; try (eexists; exact E2).
    + destruct (eqb_bytes x o) eqn:Eo.
      * apply eqb_bytes_spec in Eo. subst o. eexists. apply in_insert. right. split; reflexivity.
      * exists v. apply in_insert. left. split; [exact E2|]. intros ->. assert (X : eqb_bytes o o = true) by now apply eqb_bytes_spec. congruence.
    + exists v. apply in_remove. split; [exact E2|]. intros ->. apply (N s y p sp); [now left|exact A].
  - intros t y p q Ht. apply N. now right.
Qed.
Lemma harmless_step : forall st s, harmless s -> (forall r o p, just_saved st = Some (r, o, p) -> reserved r) -> (forall k v, In (k, v) (need_to_restore st) -> leaves k s) ->
  exists j, reserved_step st s = Restoring j (need_to_restore st) (codes st) /\ (j = None \/ j = just_saved st).
Proof.
  intros st s H Hj Hl. destruct (stmt_cases s) as [(e & sp & ->)|(y & e & sp & A)]; [eexists; split; [reflexivity|now left]|]. destruct (H y e sp A) as (Ny & Nr).
  assert (E : reserved_step st s = reserved_step st (SGlobal y e sp)) by (destruct A as [->| ->]; reflexivity). rewrite E. clear E. cbn [reserved_step].
  replace (match just_saved st with Some (saved, original, ssp) => if eqb_bytes saved y then Some (saved, original, ssp) else None | None => None end) with (@None (text * text * span)).
  2:{ destruct (just_saved st) as [((a, b), d)|]; [|reflexivity]. destruct (eqb_bytes a y) eqn:X; [|reflexivity]. apply eqb_bytes_spec in X. subst a. destruct (Ny (Hj _ _ _ eq_refl)). }
  assert (G1 : map_get (need_to_restore st) y = None). { apply get_none. intros v Hi. destruct (Hl y v Hi y e sp A) as (N & _). now apply N. }
  assert (G2 : forall n p, e = EVar n p -> map_get (need_to_restore st) n = None). { intros n p ->. apply get_none. intros v Hi. destruct (Hl n v Hi y _ sp A) as (_ & N). now apply (N p). }
  rewrite G1. assert (Ry : is_reserved y = false) by (destruct (is_reserved y) eqn:X; [apply reserved_spec in X; contradiction|reflexivity]). rewrite Ry.
  exists (just_saved st). split; [|now right]. destruct e; try reflexivity. rewrite (G2 _ _ eq_refl).
  destruct (is_reserved name) eqn:X; [apply reserved_spec in X; destruct (Nr _ _ eq_refl X)|reflexivity].
Qed.
Lemma harmless_run : forall c st, (forall s, In s c -> harmless s) -> just_saved st = None -> (forall k v s, In (k, v) (need_to_restore st) -> In s c -> leaves k s) ->
  fold_left reserved_step c st = st.
Proof.
  induction c as [|s c IH]; intros st H J L; [reflexivity|]. cbn [fold_left].
  destruct (harmless_step st s) as (j & E & Hj); [apply H; now left|rewrite J; discriminate|intros k v Hi; apply (L k v s Hi); now left|].
  assert (Es : reserved_step st s = st). { rewrite E. destruct st as [js nr cs]. cbn [just_saved need_to_restore codes] in *. destruct Hj as [->| ->]; [|reflexivity]. now rewrite J. }
  rewrite Es. apply IH; [intros t Ht; apply H; now right|exact J|intros k v t Hi Ht; apply (L k v t Hi); now right].
Qed.
(** Saving a variable, changing it and restoring it, among statements that do not touch either, is not reported. *)
Theorem C72_saved_and_restored : forall c1 s1 s2 c2 s3 c3 x r e sp p q, (forall s, In s (c1 ++ c2 ++ c3) -> harmless s) -> (forall s, In s c2 -> leaves x s) ->
  saves s1 x r -> assigns s2 r e sp -> assigns s3 r (EVar x p) q -> s23 (c1 ++ s1 :: s2 :: c2 ++ s3 :: c3) = [].
Proof.
  intros c1 s1 s2 c2 s3 c3 x r e sp p q H L (R & Nx & p1 & q1 & A1) A2 A3.
  assert (Hx : is_reserved x = false) by (destruct (is_reserved x) eqn:X; [apply reserved_spec in X; contradiction|reflexivity]). assert (Hr : is_reserved r = true) by now apply reserved_spec.
  assert (Err : eqb_bytes r r = true) by now apply eqb_bytes_spec. assert (Exx : eqb_bytes x x = true) by now apply eqb_bytes_spec.
  assert (Exr : eqb_bytes x r = false) by (destruct (eqb_bytes x r) eqn:X; [apply eqb_bytes_spec in X; subst; contradiction|reflexivity]).
  assert (E1 : forall v, reserved_step reserved_start s1 = v -> v = Restoring (Some (r, x, p1)) [] []).
  { intros v <-. destruct A1 as [->| ->]; cbn [reserved_step reserved_start just_saved need_to_restore codes map_get find option_map]; rewrite Hx, Hr; reflexivity. }
  assert (E2 : reserved_step (Restoring (Some (r, x, p1)) [] []) s2 = Restoring None [(x, (r, sp, p1))] []).
  { destruct A2 as [->| ->]; cbn [reserved_step just_saved need_to_restore codes]; rewrite Err; reflexivity. }
  assert (E3 : reserved_step (Restoring None [(x, (r, sp, p1))] []) s3 = Restoring None [] []).
  { assert (G1 : map_get [(x, (r, sp, p1))] r = None) by (unfold map_get; cbn [find fst]; rewrite Exr; reflexivity).
    assert (G2 : map_get [(x, (r, sp, p1))] x = Some (r, sp, p1)) by (unfold map_get; cbn [find fst]; rewrite Exx; reflexivity).
    assert (G3 : map_remove [(x, (r, sp, p1))] x = []) by (unfold map_remove; cbn [filter fst]; rewrite Exx; reflexivity).
    destruct A3 as [->| ->]; cbn [reserved_step just_saved need_to_restore codes]; rewrite G1, G2, G3; reflexivity. }
  unfold s23. rewrite fold_left_app, (harmless_run c1); [|intros s Hs; apply H; apply in_app_iff; now left|reflexivity|intros k v s []]. cbn [fold_left]. rewrite (E1 _ eq_refl), E2.
  rewrite fold_left_app, (harmless_run c2); [|intros s Hs; apply H; rewrite !in_app_iff; auto|reflexivity|].
  2:{ cbn [need_to_restore]. intros k v s [Hi|[]] Hs. injection Hi as <- <-. now apply L. }
  cbn [fold_left]. rewrite E3, (harmless_run c3); [reflexivity|intros s Hs; apply H; rewrite !in_app_iff; auto|reflexivity|intros k v s []].
Qed.
(** Of the names that [params] is given, the first reserved one is reported, and only it. *)
Theorem C72_params : forall lower cmd l asp e, lower cmd = bs "params" -> (exists sp, e = EUnary (UNamed cmd) (EArray l asp) sp) \/ (exists h sp, e = EBinary (BNamed cmd) h (EArray l asp) sp) ->
  (forall n sp, s23_params lower e = [Overwrite n sp] <->
    exists a x b, l = a ++ x :: b /\ reserved n /\ ((exists w, x = EString n sp w) \/ exists w r s, x = EArray (EString n sp w :: r) s) /\
      forall y m q, In y a -> (exists w, y = EString m q w) \/ (exists w r s, y = EArray (EString m q w :: r) s) -> ~ reserved m) /\
  (s23_params lower e = [] <-> forall y m q, In y l -> (exists w, y = EString m q w) \/ (exists w r s, y = EArray (EString m q w :: r) s) -> ~ reserved m).
Proof.
  intros lower cmd l asp e Hc He.
  assert (E : s23_params lower e = first_reserved l). { destruct He as [(sp & ->)|(h & sp & ->)]; cbn [s23_params]; rewrite Hc; change (eqb_bytes (bs "params") (bs "params")) with true; reflexivity. }
  rewrite E. clear E He Hc.
  assert (P : forall y m q, param_name y = Some (m, q) <-> (exists w, y = EString m q w) \/ (exists w r s, y = EArray (EString m q w :: r) s)).
  { intros y m q. split.
    - intros H. destruct y; try discriminate; cbn [param_name] in H; [injection H as -> ->; left; eauto|]. destruct l0 as [|[] ?]; try discriminate. injection H as -> ->. right. eauto.
    - intros [(w & ->)|(w & r & s & ->)]; reflexivity. }
  assert (Q : forall a n sp, first_reserved a = [Overwrite n sp] <-> exists b x d, a = b ++ x :: d /\ reserved n /\ param_name x = Some (n, sp) /\ forall y m q, In y b -> param_name y = Some (m, q) -> ~ reserved m).
  { induction a as [|x a IH]; intros n sp; cbn [first_reserved].
    - split; [discriminate|]. intros ([|? ?] & x & d & H & _); discriminate.
    - assert (Tail : (forall m q, param_name x = Some (m, q) -> ~ reserved m) -> (first_reserved a = [Overwrite n sp] <-> exists b y d, x :: a = b ++ y :: d /\ reserved n /\ param_name y = Some (n, sp) /\ forall z m q, In z b -> param_name z = Some (m, q) -> ~ reserved m)).
      { intros Hx. rewrite IH. split.
        - intros (b & y & d & -> & R & Hy & Hb). exists (x :: b), y, d. split; [reflexivity|]. split; [exact R|]. split; [exact Hy|]. intros z m q [<-|Hz]; [apply Hx|now apply Hb].
        - intros ([|x' b] & y & d & E & R & Hy & Hb); cbn [app] in E; injection E as <- ->; [destruct (Hx _ _ Hy R)|]. exists b, y, d. split; [reflexivity|]. split; [exact R|]. split; [exact Hy|]. intros z m q Hz. apply Hb. now right. }
      destruct (param_name x) as [(m, q)|] eqn:Hx; [|apply Tail; intros; discriminate]. destruct (is_reserved m) eqn:Rm.
      + apply reserved_spec in Rm. split.
        * intros [= -> ->]. exists [], x, a. split; [reflexivity|]. split; [exact Rm|]. split; [exact Hx|]. intros z m' q' [].
        * intros ([|x' b] & y & d & E & R & Hy & Hb); cbn [app] in E; injection E as <- ->; [congruence|]. destruct (Hb x m q (or_introl eq_refl) Hx Rm).
      + apply Tail. intros m' q' [= <- <-]. rewrite <- reserved_spec. congruence. }
  split.
  - intros n sp. rewrite Q. split; intros (a & x & b & -> & R & Hx & Ha); exists a, x, b; (split; [reflexivity|]); (split; [exact R|]); (split; [now apply P|]); intros y m q Hy Hp; apply (Ha y m q Hy); now apply P.
  - assert (Z : first_reserved l = [] <-> forall y m q, In y l -> param_name y = Some (m, q) -> ~ reserved m).
    { clear Q. induction l as [|x l IH]; cbn [first_reserved]; [split; [intros _ y m q []|reflexivity]|].
      assert (Tail : (forall m q, param_name x = Some (m, q) -> ~ reserved m) -> (first_reserved l = [] <-> forall y m q, In y (x :: l) -> param_name y = Some (m, q) -> ~ reserved m)).
      { intros Hx. rewrite IH. split; [intros H y m q [<-|Hy]; [apply Hx|now apply H]|]. intros H y m q Hy. apply H. now right. }
      destruct (param_name x) as [(m, q)|] eqn:Hx; [|apply Tail; intros; discriminate]. destruct (is_reserved m) eqn:Rm.
      - split; [discriminate|]. intros H. apply reserved_spec in Rm. destruct (H x m q (or_introl eq_refl) Hx Rm).
      - apply Tail. intros m' q' [= <- <-]. rewrite <- reserved_spec. congruence. }
    rewrite Z. split; intros H y m q Hy Hp; apply (H y m q Hy); now apply P.
Qed.
(** Assigning the saved value to any other variable counts as restoring. *)
Theorem C72_restored_elsewhere_refuted : exists s1 s2 s3 x r, saves s1 x r /\ assigns_to s2 r /\ ~ assigns_to s3 r /\ s23 [s1; s2; s3] = [].
Proof.
  exists (SGlobal (bs "_saved") (EVar (bs "_this") (9, 14)) (0, 14)), (SGlobal (bs "_this") (ENumber 1 (24, 25)) (16, 25)), (SGlobal (bs "_other") (EVar (bs "_saved") (36, 42)) (27, 42)), (bs "_saved"), (bs "_this").
  split; [|split; [|split]].
  - split; [now apply reserved_spec|]. split; [rewrite <- reserved_spec; discriminate|]. exists (9, 14), (0, 14). now left.
  - eexists _, _. left. reflexivity.
  - intros (e & sp & [H|H]); discriminate.
  - vm_compute. reflexivity.
Qed.
(** The names are compared as they are written, although the game does not distinguish case. *)
Theorem C72_case_refuted : exists (lower : text -> text) s x, (forall t, lower t = map (fun b => if (65 <=? b) && (b <=? 90) then b + 32 else b) t) /\ assigns_to s x /\ reserved (lower x) /\ s23 [s] = [].
Proof.
  exists (map (fun b => if (65 <=? b) && (b <=? 90) then b + 32 else b)), (SGlobal (bs "_THIS") (ENumber 1 (8, 9)) (0, 9)), (bs "_THIS"). split; [reflexivity|]. split; [eexists _, _; left; reflexivity|]. split; [apply reserved_spec|]; vm_compute; reflexivity.
Qed.
(** What is reported as never restored was saved, and then changed where the report says. *)
Theorem C72_never_restored_was_saved : forall c x q r p, In (NeverRestored x q r p) (s23 c) ->
  exists a s1 b s2 d e, c = a ++ s1 :: b ++ s2 :: d /\ saves s1 x r /\ assigns s2 r e q.
Proof.
  intros c x q r p H.
  assert (K : In (x, (r, q, p)) (need_to_restore (run23 c))).
  { unfold s23 in H. apply in_app_iff in H as [H|H].
    - exfalso. change (fold_left reserved_step c reserved_start) with (run23 c) in H. induction c as [|s c IH] using rev_ind; [destruct H|]. rewrite run_snoc in H.
      destruct (stmt_cases s) as [(e & sp & ->)|(y & e & sp & A)]; [now apply IH|].
      destruct (step_cases (run23 c) s y e sp A) as [(o & ssp & _ & E)|(_ & more & Hm & [(r' & p' & v & _ & _ & E)|(_ & [(R & E)|[(_ & r' & p' & _ & _ & E)|(_ & _ & E)]])])]; rewrite E in H; cbn [codes] in H;
        rewrite ?in_app_iff in H; repeat match type of H with _ \/ _ => destruct H as [H|H] end; try (now apply IH);
        try (destruct H as [H|[]]; discriminate);
        (destruct Hm as [->|(ch & o & ssp & ->)]; [destruct H|destruct H as [H|[]]; discriminate]).
    - apply in_map_iff in H as ((k, ((a, b), d)) & H & Hi). cbn [fst snd] in H. injection H as -> -> -> ->. exact Hi. }
  clear H. revert x q r p K.
  assert (G : (forall r x p, just_saved (run23 c) = Some (r, x, p) -> exists a s1 b, c = a ++ s1 :: b /\ saves s1 x r) /\
    (forall x q r p, In (x, (r, q, p)) (need_to_restore (run23 c)) -> exists a s1 b s2 d e, c = a ++ s1 :: b ++ s2 :: d /\ saves s1 x r /\ assigns s2 r e q)); [|exact (proj2 G)].
  induction c as [|s c IH] using rev_ind; [split; [discriminate|intros x q r p []]|]. destruct IH as (IJ & IN). rewrite run_snoc.
  assert (WJ : forall r x p, just_saved (run23 c) = Some (r, x, p) -> exists a s1 b, c ++ [s] = a ++ s1 :: b /\ saves s1 x r).
  { intros r x p Hj. apply IJ in Hj as (a & s1 & b & -> & S). exists a, s1, (b ++ [s]). split; [rewrite <- app_assoc; reflexivity|exact S]. }
  assert (WN : forall x q r p, In (x, (r, q, p)) (need_to_restore (run23 c)) -> exists a s1 b s2 d e, c ++ [s] = a ++ s1 :: b ++ s2 :: d /\ saves s1 x r /\ assigns s2 r e q).
  { intros x q r p Hi. apply IN in Hi as (a & s1 & b & s2 & d & e & -> & S & A). exists a, s1, b, s2, (d ++ [s]), e. split; [|auto]. rewrite <- app_assoc. cbn [app]. rewrite <- app_assoc. reflexivity. }
  destruct (stmt_cases s) as [(e & sp & ->)|(y & e & sp & A)]; [cbn [reserved_step just_saved need_to_restore]; split; [discriminate|exact WN]|].
  destruct (step_cases (run23 c) s y e sp A) as [(o & ssp & J & ->)|(_ & more & Hm & [(r' & p' & v & _ & _ & ->)|(_ & [(R & ->)|[(Ny & r' & p' & -> & Rr & ->)|(_ & _ & ->)]])])]; cbn [just_saved need_to_restore].
  - split; [discriminate|]. intros x q r p Hi. apply in_insert in Hi as [(Hi & _)|(-> & Hi)]; [now apply (WN x q r p)|]. injection Hi as -> -> ->. apply IJ in J as (a & s1 & b & -> & S).
    exists a, s1, b, s, [], e. split; [|auto]. rewrite <- app_assoc. reflexivity.
  - split; [exact WJ|]. intros x q r p Hi. apply in_remove in Hi as (Hi & _). now apply (WN x q r p).
  - split; [exact WJ|exact WN].
  - split; [|exact WN]. intros r x p [= <- <- <-]. exists c, s, []. split; [reflexivity|]. split; [exact Rr|]. split; [exact Ny|eauto].
  - split; [exact WJ|exact WN].
Qed.
(** The variable that holds a saved value is not to be assigned before the value is restored. *)
Theorem C72_holder_overwritten : forall c1 s1 s2 c2 s3 c3 x r e sp e3 q, saves s1 x r -> assigns s2 r e sp -> (forall s y p q, In s c2 -> ~ assigns s y (EVar x p) q) -> assigns s3 x e3 q ->
  exists ch o p, In (SavedWhileSaved x q ch o p) (s23 (c1 ++ s1 :: s2 :: c2 ++ s3 :: c3)).
Proof.
  intros c1 s1 s2 c2 s3 c3 x r e sp e3 q S A N A3. destruct (C72_never_restored c1 s1 s2 c2 x r e sp S A N) as (q' & o & p & H).
  assert (Nx : ~ reserved x) by apply S. set (c := c1 ++ s1 :: s2 :: c2) in *.
  replace (c1 ++ s1 :: s2 :: c2 ++ s3 :: c3) with ((c ++ [s3]) ++ c3) by (unfold c; rewrite <- !app_assoc; cbn [app]; rewrite <- ?app_assoc; reflexivity).
  assert (K : exists v, In (x, v) (need_to_restore (run23 c))).
  { unfold s23 in H. apply in_app_iff in H as [H|H].
    - exfalso. clear - H. change (fold_left reserved_step c reserved_start) with (run23 c) in H. induction c as [|s c IH] using rev_ind; [destruct H|]. rewrite run_snoc in H.
      destruct (stmt_cases s) as [(e & sp & ->)|(y & e & sp & A)]; [now apply IH|].
      destruct (step_cases (run23 c) s y e sp A) as [(o' & ssp & _ & E)|(_ & more & Hm & [(r' & p' & v & _ & _ & E)|(_ & [(R & E)|[(_ & r' & p' & _ & _ & E)|(_ & _ & E)]])])]; rewrite E in H; cbn [codes] in H;
        rewrite ?in_app_iff in H; repeat match type of H with _ \/ _ => destruct H as [H|H] end; try (now apply IH);
        try (destruct H as [H|[]]; discriminate);
        (destruct Hm as [->|(ch & o' & ssp & ->)]; [destruct H|destruct H as [H|[]]; discriminate]).
    - apply in_map_iff in H as ((k, v) & H & Hi). cbn [fst snd] in H. injection H as -> _ _ _. eauto. }
  destruct K as (v & K). destruct (remembered c) as (IJ & _).
  assert (G : exists w, map_get (need_to_restore (run23 c)) x = Some w). { destruct (map_get (need_to_restore (run23 c)) x) as [w|] eqn:G; [eauto|]. exfalso. exact (proj1 (get_none _ _) G v K). }
  destruct G as (((sv, os), ss) & G).
  assert (E : In (SavedWhileSaved x q os sv ss) (codes (run23 (c ++ [s3])))).
  { rewrite run_snoc. assert (E : reserved_step (run23 c) s3 = reserved_step (run23 c) (SGlobal x e3 q)) by (destruct A3 as [->| ->]; reflexivity). rewrite E. clear E. cbn [reserved_step].
    replace (match just_saved (run23 c) with Some (saved, original, ssp) => if eqb_bytes saved x then Some (saved, original, ssp) else None | None => None end) with (@None (text * text * span)).
    2:{ destruct (just_saved (run23 c)) as [((a, b), d)|] eqn:J; [|reflexivity]. destruct (eqb_bytes a x) eqn:X; [|reflexivity]. apply eqb_bytes_spec in X. subst a. destruct (IJ _ _ _ eq_refl) as (t & _ & (Rx & _)). contradiction. }
    rewrite G. assert (Rx : is_reserved x = false) by (destruct (is_reserved x) eqn:X; [apply reserved_spec in X; contradiction|reflexivity]). rewrite Rx.
    destruct (match e3 with EVar r _ => match map_get (need_to_restore (run23 c)) r with Some _ => Some r | None => None end | _ => None end); [cbn [codes]; apply in_app_iff; right; now left|].
    destruct e3; cbn [codes]; try (apply in_app_iff; right; now left). destruct (is_reserved name); cbn [codes]; apply in_app_iff; right; now left. }
  exists os, sv, ss. unfold s23. apply in_app_iff. left. exact (codes_kept c3 _ _ E).
Qed.
(** A variable saved twice in a row and then restored is reported as never restored. *)
Theorem C72_restored_reported_refuted : exists s1 s2 s3 s4 x r p q, saves s1 x r /\ assigns_to s2 r /\ assigns s4 r (EVar x p) q /\ (exists y, saves s3 y r) /\
  exists a o b, In (NeverRestored x a o b) (s23 [s1; s2; s3; s4]).
Proof.
  exists (SGlobal (bs "_s") (EVar (bs "_this") (5, 10)) (0, 10)), (SGlobal (bs "_this") (ENumber 1 (20, 21)) (12, 21)), (SGlobal (bs "_t") (EVar (bs "_this") (28, 33)) (23, 33)), (SGlobal (bs "_this") (EVar (bs "_s") (43, 45)) (35, 45)), (bs "_s"), (bs "_this"), (43, 45), (35, 45).
  assert (S : forall x e sp, is_reserved x = false -> saves (SGlobal x (EVar (bs "_this") e) sp) x (bs "_this")).
  { intros x e sp Hx. split; [now apply reserved_spec|]. split; [rewrite <- reserved_spec; congruence|]. exists e, sp. now left. }
  split; [now apply S|]. split; [eexists _, _; left; reflexivity|]. split; [now left|]. split; [exists (bs "_t"); now apply S|]. exists (12, 21), (bs "_this"), (5, 10). vm_compute. auto.
Qed.

(** ** C73 *)
Lemma ends_with_spec : forall w s, ends_with w s = true <-> ends s w.
Proof.
  intros w s. unfold ends_with, ends. rewrite starts_with_spec. split; intros (r & H).
  - exists (rev r). rewrite <- (rev_involutive s), H, rev_app_distr, rev_involutive. reflexivity.
  - exists (rev r). rewrite H, rev_app_distr. reflexivity.
Qed.
Lemma global_spec : forall cmd, is_marker_global cmd = true <-> begins cmd (bs "setMarker") /\ ~ ends cmd (bs "Local").
Proof. intros cmd. unfold is_marker_global. rewrite andb_true_iff, negb_true_iff, starts_with_spec, <- ends_with_spec, not_true_iff_false. reflexivity. Qed.
Definition update_of (s : stmt) : option (text * (text * span)) :=
  match s with
  | SExpr (EBinary (BNamed cmd) name _ csp) _ => if is_marker_global cmd then match marker_name name with Some n => Some (n, (cmd, csp)) | None => None end else None
  | _ => None
  end.
Lemma update_of_spec : forall n s cmd sp, updates n s cmd sp <-> update_of s = Some (n, (cmd, sp)).
Proof.
  intros n s cmd sp. split.
  - intros [cmd' m a csp sp' B E M]. cbn [update_of]. rewrite (proj2 (global_spec cmd') (conj B E)). destruct M as [(p & ->)|(p & w & ->)]; reflexivity.
  - unfold update_of. destruct s as [| |e q]; try discriminate. destruct e as [| | | | | | | |b e1 e2 csp|]; try discriminate. destruct b as [g| | | | | | | | | | | | | | | | | | | | | |]; try discriminate. destruct (is_marker_global g) eqn:G; [|discriminate]. apply global_spec in G as (B & E).
    destruct (marker_name e1) as [m|] eqn:M; [|discriminate]. intros [= -> -> ->]. constructor; [exact B|exact E|]. destruct e1; try discriminate; injection M as ->; [right|left]; eauto.
Qed.
Definition upd (n : text) (c : list stmt) : calls := flat_map (fun s => match update_of s with Some (m, k) => if eqb_bytes m n then [k] else [] | None => [] end) c.
Lemma upd_spec : forall n c l, all_updates n c l <-> l = upd n c.
Proof.
  intros n c l. split.
  - induction 1 as [|s c cmd sp l H _ IH|s c l H _ IH]; [reflexivity| |]; cbn [upd flat_map].
    + apply update_of_spec in H. rewrite H. replace (eqb_bytes n n) with true by (symmetry; now apply eqb_bytes_spec). rewrite IH. reflexivity.
    + destruct (update_of s) as [(m, (cmd, sp))|] eqn:E; [|exact IH]. destruct (eqb_bytes m n) eqn:X; [|exact IH]. apply eqb_bytes_spec in X. subst m. destruct (H cmd sp). now apply update_of_spec.
  - intros ->. induction c as [|s c IH]; [constructor|]. cbn [upd flat_map]. destruct (update_of s) as [(m, (cmd, sp))|] eqn:E.
    + destruct (eqb_bytes m n) eqn:X.
      * apply eqb_bytes_spec in X. subst m. apply one_update; [now apply update_of_spec|exact IH].
      * apply not_update; [|exact IH]. intros cmd' sp' H. apply update_of_spec in H. rewrite H in E. injection E as -> _ _. assert (Y : eqb_bytes m m = true) by now apply eqb_bytes_spec. congruence.
    + apply not_update; [|exact IH]. intros cmd' sp' H. apply update_of_spec in H. congruence.
Qed.
Lemma upd_app : forall n a b, upd n (a ++ b) = upd n a ++ upd n b.
Proof. intros n a b. apply flat_map_app. Qed.
Definition assigned (s : stmt) : option text := match s with SGlobal n _ _ | SLocal n _ _ => Some n | SExpr _ _ => None end.
Lemma assigned_spec : forall s n, assigns_to s n <-> assigned s = Some n.
Proof.
  intros s n. split; [intros (e & sp & [->| ->]); reflexivity|]. destruct s as [m e sp|m e sp|e sp]; intros [= ->]; exists e, sp; [now left|now right].
Qed.
Definition clears (n : text) (s : stmt) : bool := match assigned s with Some m => eqb_bytes m n | None => false end.
Lemma clears_spec : forall n s, clears n s = true <-> assigns_to s n.
Proof.
  intros n s. rewrite assigned_spec. unfold clears. destruct (assigned s) as [m|]; [|split; discriminate]. rewrite eqb_bytes_spec. split; congruence.
Qed.
Definition last_run (n : text) (c : list stmt) : list stmt := fold_left (fun b s => if clears n s then [] else b ++ [s]) c [].
Lemma last_run_snoc : forall n c s, last_run n (c ++ [s]) = if clears n s then [] else last_run n c ++ [s].
Proof. intros n c s. unfold last_run. rewrite fold_left_app. reflexivity. Qed.
Definition starts_run (n : text) (a : list stmt) : Prop := a = [] \/ exists a' s, a = a' ++ [s] /\ assigns_to s n.
Lemma last_run_is : forall n c b, b = last_run n c <-> exists a, c = a ++ b /\ (forall s, In s b -> ~ assigns_to s n) /\ starts_run n a.
Proof.
  intros n c. induction c as [|s c IH] using rev_ind; intros b.
  - split.
    + intros ->. exists []. split; [reflexivity|]. split; [intros s []|now left].
    + intros (a & E & _). symmetry in E. apply app_eq_nil in E as (_ & ->). reflexivity.
  - rewrite last_run_snoc. destruct (clears n s) eqn:C.
    + apply clears_spec in C. split.
      * intros ->. exists (c ++ [s]). split; [now rewrite app_nil_r|]. split; [intros t []|]. right. eauto.
      * intros (a & E & Hb & _). destruct b as [|t b _] using rev_ind; [reflexivity|]. rewrite app_assoc in E. apply app_inj_tail in E as (_ & <-). destruct (Hb s); [apply in_app_iff; right; now left|exact C].
    + assert (Ns : ~ assigns_to s n) by (rewrite <- clears_spec; congruence). split.
      * intros ->. destruct (proj1 (IH _) eq_refl) as (a & E & Hb & Ha). exists a. split; [rewrite E at 1; now rewrite app_assoc|]. split; [|exact Ha]. intros t Ht. apply in_app_iff in Ht as [Ht|[<-|[]]]; [now apply Hb|exact Ns].
      * intros (a & E & Hb & Ha). destruct b as [|t b _] using rev_ind.
        { rewrite app_nil_r in E. subst a. destruct Ha as [Ha|(a' & t & Ha & At)]; [destruct c; discriminate|]. apply app_inj_tail in Ha as (_ & <-). contradiction. }
        rewrite app_assoc in E. apply app_inj_tail in E as (E & <-). f_equal. apply IH. exists a. split; [exact E|]. split; [|exact Ha]. intros t Ht. apply Hb. apply in_app_iff. now left.
Qed.
Definition closed_run (n : text) (c b : list stmt) : Prop := exists a s z, c = a ++ s :: z /\ assigns_to s n /\ b = last_run n a.
Lemma closed_snoc : forall n c s b, closed_run n (c ++ [s]) b <-> closed_run n c b \/ assigns_to s n /\ b = last_run n c.
Proof.
  intros n c s b. split.
  - intros (a & t & z & E & At & ->). destruct z as [|u z _] using rev_ind.
    + apply app_inj_tail in E as (-> & ->). now right.
    + left. exists a, t, z. split; [|auto]. change (t :: z ++ [u]) with ((t :: z) ++ [u]) in E. rewrite app_assoc in E. now apply app_inj_tail in E as (E & _).
  - intros [(a & t & z & -> & At & ->)|(As & ->)]; [exists a, t, (z ++ [s])|exists c, s, []]; (split; [|auto]); [|reflexivity]. rewrite <- app_assoc. reflexivity.
Qed.
Lemma run_of_cases : forall n c b, run_of n c b <-> closed_run n c b \/ b = last_run n c.
Proof.
  intros n c b. split.
  - intros (a & z & -> & Hb & Ha & [->|(s & z' & -> & As)]).
    + right. apply last_run_is. exists a. rewrite app_nil_r. auto.
    + left. exists (a ++ b), s, z'. split; [now rewrite app_assoc|]. split; [exact As|]. apply last_run_is. exists a. auto.
  - intros [(a & s & z & -> & As & E)| E].
    + apply last_run_is in E as (a' & -> & Hb & Ha). exists a', (s :: z). split; [now rewrite app_assoc|]. split; [exact Hb|]. split; [exact Ha|]. right. eauto.
    + apply last_run_is in E as (a' & -> & Hb & Ha). exists a', []. split; [now rewrite app_nil_r|]. auto.
Qed.
Lemma marker_state : forall c, let st := fold_left marker_step c ([], []) in
  NoDup (map fst (fst st)) /\ (forall n l, In (n, l) (fst st) <-> l <> [] /\ l = upd n (last_run n c)) /\
  (forall l, In l (snd st) <-> exists n b, closed_run n c b /\ l = upd n b /\ (2 <= length l)%nat).
Proof.
  induction c as [|s c IH] using rev_ind.
  - cbn. split; [constructor|]. split.
    + intros n l. split; [intros []|]. intros (H & ->). now destruct H.
    + intros l. split; [intros []|]. intros (n & b & ([|? ?] & t & z & E & _) & _); discriminate.
  - intros st. unfold st. clear st. rewrite fold_left_app. cbn [fold_left]. destruct (fold_left marker_step c ([], [])) as (pending, found). cbn [fst snd] in IH. destruct IH as (D & P & F).
    destruct (assigned s) as [m|] eqn:As.
    + assert (E : marker_step (pending, found) s = match map_get pending m with Some l => (map_remove pending m, if (1 <? length l)%nat then found ++ [l] else found) | None => (pending, found) end).
      { destruct s; cbn [assigned] in As; try discriminate; injection As as ->; reflexivity. }
      assert (U : update_of s = None) by (destruct s; [reflexivity|reflexivity|discriminate]).
      assert (Cm : forall n, clears n s = eqb_bytes m n) by (intros n; unfold clears; now rewrite As).
      assert (PN : forall n l, n <> m -> In (n, l) pending <-> l <> [] /\ l = upd n (last_run n (c ++ [s]))).
      { intros n l Hn. rewrite P, last_run_snoc, Cm. destruct (eqb_bytes m n) eqn:X; [apply eqb_bytes_spec in X; congruence|]. rewrite upd_app. cbn [upd flat_map]. rewrite U. cbn [app]. rewrite app_nil_r. reflexivity. }
      assert (PM : forall l, ~ (l <> [] /\ l = upd m (last_run m (c ++ [s])))).
      { intros l (H & E'). rewrite last_run_snoc, Cm in E'. replace (eqb_bytes m m) with true in E' by (symmetry; now apply eqb_bytes_spec). now apply H. }
      assert (FN : forall l, (exists n b, closed_run n (c ++ [s]) b /\ l = upd n b /\ (2 <= length l)%nat) <-> In l found \/ l = upd m (last_run m c) /\ (2 <= length l)%nat).
      { intros l. rewrite F. split.
        - intros (n & b & H & E' & Hl). apply closed_snoc in H as [H|(H & ->)]; [left; eauto|]. apply assigned_spec in H. rewrite H in As. injection As as ->. right. auto.
        - intros [(n & b & H & R)|(E' & Hl)]; [exists n, b; split; [apply closed_snoc; now left|exact R]|]. exists m, (last_run m c). split; [apply closed_snoc; right; split; [now apply assigned_spec|reflexivity]|auto]. }
      rewrite E. destruct (map_get pending m) as [l0|] eqn:G; cbn [fst snd].
      * apply get_in in G. pose proof (proj1 (P m l0) G) as (Hne & El). split; [now apply nodup_remove|]. split.
        { intros n l. rewrite in_remove. split.
          - intros (Hi & Hn). now apply PN.
          - intros H. destruct (eqb_bytes n m) eqn:X; [apply eqb_bytes_spec in X; subst n; destruct (PM l H)|]. assert (Hn : n <> m) by (intros ->; assert (Y : eqb_bytes m m = true) by (now apply eqb_bytes_spec); congruence). split; [now apply PN|exact Hn]. }
        intros l. rewrite FN. destruct (1 <? length l0)%nat eqn:L.
        { rewrite in_app_iff. cbn [In]. apply Nat.ltb_lt in L. split; [intros [H|[<-|[]]]; [now left|right; split; [exact El|lia]]|]. intros [H|(-> & _)]; [now left|right; left; exact El]. }
        apply Nat.ltb_ge in L. split; [now left|]. intros [H|(-> & H)]; [exact H|]. rewrite <- El in H. lia.
      * pose proof (proj1 (get_none pending m) G) as Gn. split; [exact D|]. split.
        { intros n l. split.
          - intros Hi. apply PN; [|exact Hi]. intros ->. exact (Gn l Hi).
          - intros H. destruct (eqb_bytes n m) eqn:X; [apply eqb_bytes_spec in X; subst n; destruct (PM l H)|]. apply PN; [|exact H]. intros ->. assert (Y : eqb_bytes m m = true) by now apply eqb_bytes_spec. congruence. }
        intros l. rewrite FN. split; [now left|]. intros [H|(El & H)]; [exact H|]. exfalso. apply (Gn l). apply P. split; [|exact El]. intros ->. cbn [length] in H. lia.
    + assert (Cs : forall n, clears n s = false) by (intros n; unfold clears; now rewrite As).
      assert (FN : forall l, In l found <-> exists n b, closed_run n (c ++ [s]) b /\ l = upd n b /\ (2 <= length l)%nat).
      { intros l. rewrite F. split; intros (n & b & H & R); exists n, b; (split; [|exact R]).
        - apply closed_snoc. now left.
        - apply closed_snoc in H as [H|(H & _)]; [exact H|]. apply assigned_spec in H. congruence. }
      assert (E : marker_step (pending, found) s = match update_of s with Some (n, k) => (map_insert pending n (match map_get pending n with Some l => l | None => [] end ++ [k]), found) | None => (pending, found) end).
      { destruct s as [| |e q]; try discriminate. destruct e as [| | | | | | | |b e1 e2 csp|]; try reflexivity. destruct b as [g| | | | | | | | | | | | | | | | | | | | | |]; try reflexivity. cbn [marker_step update_of]. destruct (is_marker_global g); [|reflexivity]. destruct (marker_name e1); reflexivity. }
      rewrite E. destruct (update_of s) as [(m, k)|] eqn:U; cbn [fst snd].
      * assert (Gm : match map_get pending m with Some l => l | None => [] end = upd m (last_run m c)).
        { destruct (map_get pending m) as [l|] eqn:G; [apply get_in, P in G; apply G|]. destruct (upd m (last_run m c)) as [|k' r] eqn:X; [reflexivity|]. exfalso. apply (proj1 (get_none pending m) G (k' :: r)). apply P. split; [discriminate|now rewrite X]. }
        unfold calls in *. rewrite Gm. split; [now apply nodup_insert|]. split; [|exact FN]. intros n l. rewrite in_insert, P, last_run_snoc, Cs, upd_app. cbn [upd flat_map]. rewrite U.
        destruct (eqb_bytes m n) eqn:X.
        { apply eqb_bytes_spec in X. subst n. split; [intros [(_ & H)|(_ & ->)]; [now destruct H|]|]. { split; [intros H; apply app_eq_nil in H as (_ & H); discriminate|reflexivity]. } intros (_ & ->). now right. }
        cbn [app]. rewrite app_nil_r. assert (Hn : n <> m) by (intros ->; assert (Y : eqb_bytes m m = true) by (now apply eqb_bytes_spec); congruence). split; [intros [(H & _)|(H & _)]; [exact H|contradiction]|]. intros H. left. auto.
      * split; [exact D|]. split; [|exact FN]. intros n l. rewrite P, last_run_snoc, Cs, upd_app. cbn [upd flat_map]. rewrite U. cbn [app]. rewrite app_nil_r. reflexivity.
Qed.
(** What is reported is, for some name and some longest run of statements without an assignment to it, all the updates of the
    marker of that name, if they are two or more. *)
Theorem C73_exactly : forall c l, In l (s24 c) <-> exists n b, run_of n c b /\ all_updates n b l /\ (2 <= length l)%nat.
Proof.
  intros c l. unfold s24. pose proof (marker_state c) as H. cbv zeta in H. destruct (fold_left marker_step c ([], [])) as (pending, found). cbn [fst snd] in H. destruct H as (_ & P & F).
  rewrite in_app_iff, filter_In, in_map_iff, F, Nat.ltb_lt. split.
  - intros [(n & b & H & E & L)|(((n, l') & E & Hi) & L)].
    + exists n, b. split; [apply run_of_cases; now left|]. split; [now apply upd_spec|exact L].
    + cbn [snd] in E. subst l'. apply P in Hi as (_ & E). exists n, (last_run n c). split; [apply run_of_cases; now right|]. split; [now apply upd_spec|lia].
  - intros (n & b & H & U & L). apply upd_spec in U. apply run_of_cases in H as [H| ->]; [left; eauto|right]. split; [|lia]. exists (n, l). split; [reflexivity|]. apply P. split; [|exact U]. intros ->. cbn [length] in L. lia.
Qed.
(** A variable and a string of its name count as the same marker. *)
Theorem C73_variable_and_string_refuted : exists cmd a n x p q w s t u v, let c := [SExpr (EBinary (BNamed cmd) (EVar n p) a s) t; SExpr (EBinary (BNamed cmd) (EString n q w) x u) v] in s24 c = [[(cmd, s); (cmd, u)]].
Proof. exists (bs "setMarkerText"), (EVar (bs "_a") (18, 20)), (bs "_m"), (EVar (bs "_b") (42, 44)), (0, 2), (22, 26), DoubleQuote, (3, 16), (0, 20), (27, 40), (22, 44). vm_compute. reflexivity. Qed.
(** Commands written in another case are missed, although the game does not distinguish case. *)
Theorem C73_case_refuted : exists cmd cmd' m a s t, map (fun b => if (65 <=? b) && (b <=? 90) then b + 32 else b) cmd = map (fun b => if (65 <=? b) && (b <=? 90) then b + 32 else b) cmd' /\
  s24 [SExpr (EBinary (BNamed cmd) m a s) t; SExpr (EBinary (BNamed cmd) m a s) t] = [] /\ s24 [SExpr (EBinary (BNamed cmd') m a s) t; SExpr (EBinary (BNamed cmd') m a s) t] <> [].
Proof. exists (bs "setmarkertext"), (bs "setMarkerText"), (EString (bs "m") (0, 3) DoubleQuote), (EVar (bs "_a") (18, 20)), (4, 17), (0, 20). split; [vm_compute; reflexivity|]. split; [vm_compute; reflexivity|vm_compute; discriminate]. Qed.

(** ** Cases *)
(** [_saved = _this; _this = 1; call f; _this = _saved;] meets the hypotheses of [C72_saved_and_restored]; without its last
    statement, those of [C72_never_restored]. *)
Example C72_case_restored : let s1 := SGlobal (bs "_saved") (EVar (bs "_this") (9, 14)) (0, 14) in let s2 := SGlobal (bs "_this") (ENumber 1 (24, 25)) (16, 25) in
  let s3 := SExpr (EUnary (UNamed (bs "call")) (EVar (bs "f") (32, 33)) (27, 31)) (27, 33) in let s4 := SGlobal (bs "_this") (EVar (bs "_saved") (43, 49)) (35, 49) in
  saves s1 (bs "_saved") (bs "_this") /\ assigns s2 (bs "_this") (ENumber 1 (24, 25)) (16, 25) /\ harmless s3 /\ leaves (bs "_saved") s3 /\ s23 [s1; s2; s3; s4] = [] /\
  s23 [s1; s2; s3] = [NeverRestored (bs "_saved") (16, 25) (bs "_this") (9, 14)] /\ s23 [s2] = [Overwrite (bs "_this") (16, 25)].
Proof.
  cbv zeta. split; [|split; [|split; [|split; [|vm_compute; auto]]]].
  - split; [now apply reserved_spec|]. split; [rewrite <- reserved_spec; discriminate|]. eexists _, _. left. reflexivity.
  - now left.
  - intros x e sp [H|H]; discriminate.
  - intros x e sp [H|H]; discriminate.
Qed.
(** [_m setMarkerText a; _m setMarkerColor b; _m = c; _m setMarkerText d;]: the first two are reported together. *)
Example C73_case : let u cmd p := SExpr (EBinary (BNamed cmd) (EVar (bs "_m") (p, p + 2)) (EVar (bs "a") (p + 18, p + 19)) (p + 3, p + 16)) (p, p + 20) in
  s24 [u (bs "setMarkerText") 0; u (bs "setMarkerColor") 22; SGlobal (bs "_m") (EVar (bs "c") (48, 49)) (44, 49); u (bs "setMarkerText") 51] = [[(bs "setMarkerText", (3, 16)); (bs "setMarkerColor", (25, 38))]].
Proof. vm_compute. reflexivity. Qed.

Print Assumptions C72_overwrites_are_overwrites.
Print Assumptions C72_overwrites_are_reported.
Print Assumptions C72_never_restored.
Print Assumptions C72_never_restored_was_saved.
Print Assumptions C72_holder_overwritten.
Print Assumptions C72_saved_and_restored.
Print Assumptions C72_params.
Print Assumptions C72_restored_elsewhere_refuted.
Print Assumptions C72_restored_reported_refuted.
Print Assumptions C72_case_refuted.
Print Assumptions C73_exactly.
Print Assumptions C73_variable_and_string_refuted.
Print Assumptions C73_case_refuted.
