(** The engine of OptimizeEngine.v meets the laws of OptimizeSpec.v. *)
From Coq Require Import String.
From Verif Require Import Base.Tactics Base.Bytes Base.Ascii Base.Text Sqf.Ast Sqf.OptimizeModel Sqf.OptimizeSpec Sqf.OptimizeProofs Sqf.OptimizeEngine.
Local Open Scope N_scope.
Local Open Scope list_scope.

Lemma Forall2_length {A B} {R : A -> B -> Prop} {l l'} : Forall2 R l l' -> length l = length l'.
Proof. induction 1; cbn; auto. Qed.

Lemma bl_cons {V W} (f : literal -> W -> V * W) x l w :
  build_list f (x :: l) w = let (v, w) := f x w in let (vs, w) := build_list f l w in (v :: vs, w).
Proof. reflexivity. Qed.

Section Meets.
  Context (fneg fsqrt : N -> N) (fadd fsub fmul fdiv frem : N -> N -> N) (finite : N -> bool).
  Context (writable mutable : bool).
  Notation L := (heap_lang fneg fsqrt fadd fsub fmul fdiv frem writable mutable).
  Notation C := (heap_corr fneg fsqrt fadd fsub fmul fdiv frem finite writable mutable).
  Notation code_rel := (code_rel fneg fsqrt fadd fsub fmul fdiv frem finite).
  Notation lit_rel := (lit_rel fneg fsqrt fadd fsub fmul fdiv frem finite).
  Notation val_rel := (val_rel fneg fsqrt fadd fsub fmul fdiv frem finite).
  Notation holds := (holds fneg fsqrt fadd fsub fmul fdiv frem finite).
  Notation world_rel := (world_rel fneg fsqrt fadd fsub fmul fdiv frem finite).
  Notation same_run := (same_run fneg fsqrt fadd fsub fmul fdiv frem finite L C).
  Notation unary_impl := (unary_impl fneg fsqrt).
  Notation binary_impl := (binary_impl fadd fsub fmul fdiv frem mutable).
  Notation Ro := (Ro L C).
  Notation same := (same L C).
  Notation mp := (list (nat * nat)).

  Lemma val_rel_le (k k' : mp) v v' : incl k k' -> val_rel k v v' -> val_rel k' v v'.
  Proof. intros H. destruct v, v'; cbn; auto. Qed.
  Lemma vals_rel_le (k k' : mp) c c' : incl k k' -> Forall2 (val_rel k) c c' -> Forall2 (val_rel k') c c'.
  Proof. intros H. apply Forall2_impl. intros. eapply val_rel_le; eauto. Qed.

  Lemma lit_rel_arr l l' : lit_rel (LArr l) (LArr l') <-> Forall2 lit_rel l l'.
  Proof.
    cbn. revert l'. induction l as [|x l IH]; intros [|y l'].
    - split; constructor.
    - split; intros H; [contradiction|inversion H].
    - split; intros H; [contradiction|inversion H].
    - rewrite IH. split; intros H; [constructor; tauto|inversion H; auto].
  Qed.
  Lemma holds_arr k h v ls : holds k h v (LArr ls) <->
    exists a c, v = VRef a /\ (forall b, ~ In (a, b) k) /\ nth_error h a = Some c /\ Forall2 (holds k h) c ls.
  Proof.
    cbn.
    assert (forall c, (fix go (c : list val) (ls : list literal) {struct ls} : Prop := match ls, c with [], [] => True | y :: ls, x :: c => holds k h x y /\ go c ls | _, _ => False end) c ls <-> Forall2 (holds k h) c ls) as E.
    { induction ls as [|y ls IH]; intros [|x c].
      - split; constructor.
      - split; intros H; [contradiction|inversion H].
      - split; intros H; [contradiction|inversion H].
      - rewrite IH. split; intros H; [constructor; tauto|inversion H; auto]. }
    split; intros (a & c & H1 & H2 & H3 & H4); exists a, c; repeat split; auto; now apply E.
  Qed.
  Lemma lit_ind' (P : literal -> Prop) : (forall l, (forall ls, l <> LArr ls) -> P l) -> (forall ls, Forall P ls -> P (LArr ls)) -> forall l, P l.
  Proof.
    intros H1 H2. fix IH 1. intros [x|s|b|n|c s sp|l]; try (apply H1; discriminate).
    apply H2. induction l as [|x l IHl]; constructor; [apply IH|exact IHl].
  Qed.
  Lemma holds_other k h v l : (forall ls, l <> LArr ls) -> (holds k h v l <-> val_rel [] v (lit_val l)).
  Proof. intros H. destruct l; try reflexivity. now specialize (H l). Qed.
  Lemma holds_change (k k' : mp) h h' v l :
    (forall a c, (forall b, ~ In (a, b) k) -> nth_error h a = Some c -> nth_error h' a = Some c /\ (forall b, ~ In (a, b) k')) ->
    holds k h v l -> holds k' h' v l.
  Proof.
    intros F. revert v. induction l as [l Hl|ls IH] using lit_ind'; intros v H.
    - rewrite holds_other in * by assumption. exact H.
    - rewrite holds_arr in *. destruct H as (a & c & -> & Ha & Hc & Hs). destruct (F a c Ha Hc) as [H1 H2].
      exists a, c. repeat split; auto. clear -Hs IH. revert c Hs. induction IH as [|x ls Hx IH IH']; intros c Hs; inversion Hs; subst; constructor; auto.
  Qed.

  Lemma rw_drop k x p w w' : world_rel k (x :: p) w w' -> world_rel k p w w'.
  Proof. intros [H1 H2 H3 H4 H5 H6]. split; auto. now inversion H6. Qed.

  Lemma nth_app_l {A} (l : list A) x a c : nth_error l a = Some c -> nth_error (l ++ x) a = Some c.
  Proof. intros H. rewrite nth_error_app1; [assumption|]. apply nth_error_Some. now rewrite H. Qed.
  Lemma nth_app_last {A} (l : list A) x : nth_error (l ++ [x]) (length l) = Some x.
  Proof. rewrite nth_error_app2 by lia. now rewrite Nat.sub_diag. Qed.

  (** Two new arrays. *)
  Lemma alloc_rel k p w w' c c' : world_rel k p w w' -> Forall2 (val_rel k) c c' ->
    exists k', incl k k' /\ val_rel k' (fst (alloc c w)) (fst (alloc c' w')) /\ world_rel k' p (snd (alloc c w)) (snd (alloc c' w')).
  Proof.
    intros [F I H V M P] Hc. exists ((length (heap w), length (heap w')) :: k).
    assert (forall a b, In (a, b) k -> (a < length (heap w))%nat /\ (b < length (heap w'))%nat) as B.
    { intros a b Hab. destruct (H a b Hab) as (c1 & c2 & H1 & H2 & _). split; apply nth_error_Some; congruence. }
    assert (incl k ((length (heap w), length (heap w')) :: k)) as IN by (apply incl_tl, incl_refl).
    split; [exact IN|]. split; [left; reflexivity|]. split; cbn [alloc snd heap vars me].
    - intros a b b' [E|Ha] [E'|Ha']; try congruence.
      + injection E as <- <-. apply B in Ha'. lia.
      + injection E' as <- <-. apply B in Ha. lia.
      + eauto.
    - intros a a' b [E|Ha] [E'|Ha']; try congruence.
      + injection E as <- <-. apply B in Ha'. lia.
      + injection E' as <- <-. apply B in Ha. lia.
      + eauto.
    - intros a b [E|Ha].
      + injection E as <- <-. exists c, c'. rewrite !nth_app_last. repeat split. eapply vals_rel_le; eauto.
      + destruct (H a b Ha) as (c1 & c2 & H1 & H2 & H3). exists c1, c2. repeat split; [now apply nth_app_l|now apply nth_app_l|]. eapply vals_rel_le; eauto.
    - eapply Forall2_impl; [|exact V]. intros x y [E R]. split; [exact E|]. eapply val_rel_le; eauto.
    - eapply val_rel_le; eauto.
    - eapply Forall_impl; [|exact P]. intros [v ls] Hv. eapply holds_change; [|exact Hv].
      intros a c0 Ha Hn. split; [now apply nth_app_l|]. intros b [E|Hb]; [|now apply (Ha b)]. injection E as <- <-.
      assert (length (heap w) < length (heap w))%nat by (apply nth_error_Some; congruence). lia.
  Qed.

  Lemma same_pair k p v v' w w' : (exists k', incl k k' /\ val_rel k' v v' /\ world_rel k' p w w') -> same val_rel k p (Some (v, w)) (Some (v', w')).
  Proof. intros H. exact H. Qed.
  Lemma same_here k p v v' w w' : val_rel k v v' -> world_rel k p w w' -> same val_rel k p (Some (v, w)) (Some (v', w')).
  Proof. intros H H'. exists k. split; [apply incl_refl|auto]. Qed.
  Lemma same_alloc k p w w' c c' : world_rel k p w w' -> Forall2 (val_rel k) c c' -> same val_rel k p (Some (alloc c w)) (Some (alloc c' w')).
  Proof. intros H H'. exact (alloc_rel k p w w' c c' H H'). Qed.

  Lemma lit_vals k l l' : Forall2 lit_rel l l' -> Forall2 (val_rel k) (map lit_val l) (map lit_val l').
  Proof.
    induction 1 as [|x y l l' H F IH]; constructor; auto. clear -H. destruct x, y; cbn in H |- *; try easy; try congruence.
    apply lit_rel_arr. exact H.
  Qed.
  Lemma contents_rel k p w w' v v' : world_rel k p w w' -> val_rel k v v' ->
    match contents v w, contents v' w' with Some c, Some c' => Forall2 (val_rel k) c c' | None, None => True | _, _ => False end.
  Proof.
    intros H R. destruct v, v'; cbn in R |- *; try easy; [|now apply lit_vals].
    destruct (w_heap _ _ _ _ _ _ _ _ _ _ _ _ H _ _ R) as (c & c' & -> & -> & F). exact F.
  Qed.
  Lemma contents_held k p w w' v ls : world_rel k ((v, ls) :: p) w w' -> exists c, contents v w = Some c /\ Forall2 (holds k (heap w)) c ls.
  Proof.
    intros H. pose proof (w_pending _ _ _ _ _ _ _ _ _ _ _ _ H) as P. inversion P; subst. cbn [fst snd] in *.
    apply holds_arr in H2 as (a & c & -> & _ & E & F). eauto.
  Qed.
  Lemma numbers_rel k c c' : Forall2 (val_rel k) c c' -> numbers c = numbers c'.
  Proof.
    induction 1 as [|x y l l' H F IH]; [reflexivity|]. destruct x, y; cbn in H; try easy; try congruence. injection H as ->. cbn. now rewrite IH.
  Qed.
  Lemma numbers_held k h c ls : Forall2 (holds k h) c ls -> numbers c = numbers (map lit_val ls).
  Proof.
    induction 1 as [|x y l l' H F IH]; [reflexivity|]. destruct y.
    6: { apply holds_arr in H as (a & c & -> & _). reflexivity. }
    all: rewrite holds_other in H by discriminate; destruct x; cbn in H; try easy; try congruence. injection H as ->. cbn. now rewrite IH.
  Qed.
  Lemma nums_rel k l : Forall2 (val_rel k) (map VNum l) (map VNum l).
  Proof. induction l; constructor; auto. reflexivity. Qed.

  Lemma value_of_rel k p x y : same Ro k p x y -> same val_rel k p (value_of x) (value_of y).
  Proof.
    destruct x as [[[v|] w]|], y as [[[v'|] w']|]; cbn; try easy; try (intros (k' & H1 & H2 & H3); try contradiction; exists k'; auto).
  Qed.
  Lemma value_of_keeps r c w v w' : keeps L r -> value_of (r c w) = Some (v, w') -> me w' = me w.
  Proof.
    intros Kr. destruct (r c w) as [[[u|] w1]|] eqn:E; [| |discriminate]; intros H; injection H as _ <-; exact (Kr _ _ _ _ E).
  Qed.

  Lemma get_rel k p w w' x : world_rel k p w w' ->
    same val_rel k p (match lookup x (vars w) with Some v => Some (v, w) | None => None end) (match lookup x (vars w') with Some v => Some (v, w') | None => None end).
  Proof.
    intros H. assert (match lookup x (vars w), lookup x (vars w') with Some v, Some v' => val_rel k v v' | None, None => True | _, _ => False end) as E.
    { pose proof (w_vars _ _ _ _ _ _ _ _ _ _ _ _ H) as F. revert F. generalize (vars w) (vars w'). induction 1 as [|[n v] [n' v'] l l' [E R] F IH]; [exact I|].
      cbn in E, R |- *. subst n'. destruct (same_text x n); auto. }
    destruct (lookup x (vars w)), (lookup x (vars w')); try easy. now apply same_here.
  Qed.
  Lemma assign_rel k p w w' x v v' : world_rel k p w w' -> val_rel k v v' ->
    match assign writable x v w, assign writable x v' w' with
    | Some w, Some w' => exists k', incl k k' /\ world_rel k' p w w' | None, None => True | _, _ => False end.
  Proof.
    intros [F I H V M P] R. unfold assign.
    destruct (writable && _)%bool; exists k; (split; [apply incl_refl|]); split; cbn [heap vars me]; auto.
  Qed.
  Lemma me_rel k p w w' v v' : world_rel k p w w' -> val_rel k v v' -> world_rel k p (Wld (heap w) (vars w) v) (Wld (heap w') (vars w') v').
  Proof. intros [F I H V M P] R. split; cbn [heap vars me]; auto. Qed.

  Lemma nth_update_same l a c : (a < length l)%nat -> nth_error (update l a c) a = Some c.
  Proof. revert a. induction l as [|x l IH]; intros [|a] H; cbn in *; try lia; [reflexivity|]. apply IH. lia. Qed.
  Lemma nth_update_other l a b c : a <> b -> nth_error (update l a c) b = nth_error l b.
  Proof. revert a b. induction l as [|x l IH]; intros [|a] [|b] H; cbn; auto; congruence. Qed.
  Lemma update_rel k p w w' a b c c' : world_rel k p w w' -> In (a, b) k -> Forall2 (val_rel k) c c' ->
    world_rel k p (Wld (update (heap w) a c) (vars w) (me w)) (Wld (update (heap w') b c') (vars w') (me w')).
  Proof.
    intros [F I H V M P] Hab R. split; cbn [heap vars me]; auto.
    - intros a1 b1 H1. destruct (H a b Hab) as (x & x' & X1 & X2 & _).
      destruct (Nat.eq_dec a a1) as [->|Na].
      + assert (b1 = b) as -> by eauto. exists c, c'. rewrite !nth_update_same by (apply nth_error_Some; congruence). auto.
      + assert (b <> b1) as Nb by (intros ->; eauto). rewrite !nth_update_other by auto. auto.
    - eapply Forall_impl; [|exact P]. intros [v ls] Hv. eapply holds_change; [|exact Hv].
      intros a1 c1 Ha Hn. split; [|assumption]. rewrite nth_update_other; [assumption|]. intros ->. now apply (Ha b).
  Qed.

  Ltac names := repeat match goal with |- context [is_name ?x ?l] => destruct (is_name x l) end.
  Lemma unary_rel r r' k p w w' x v v' : same_run r r' -> keeps L r -> world_rel k p w w' -> val_rel k v v' ->
    same val_rel k p (unary_impl r x v w) (unary_impl r' x v' w').
  Proof.
    intros Hr Kr Hw Hv. pose proof (contents_rel _ _ _ _ _ _ Hw Hv) as Hc.
    unfold OptimizeEngine.unary_impl. names; try exact I.
    - destruct v, v'; cbn in Hv; try easy; try congruence; try exact I. injection Hv as ->. now apply same_here.
    - destruct v, v'; cbn in Hv; try easy; try congruence; try exact I. injection Hv as ->. now apply same_here.
    - destruct v, v'; cbn in Hv; try easy; try congruence; try exact I. injection Hv as ->. now apply same_here.
    - destruct v, v'; cbn in Hv; try easy; try congruence; try exact I. injection Hv as ->. now apply same_here.
    - destruct v, v'; cbn in Hv; try easy; try congruence; try exact I.
      clear Hc. assert (forall x y, lit_rel x y -> forall k p w w', world_rel k p w w' -> same val_rel k p (Some (alloc_lit x w)) (Some (alloc_lit y w'))) as G.
      { clear. induction x as [x Hx|ls IH] using lit_ind'; intros y Hy k p w w' Hw.
        - destruct x, y; cbn in Hy; try easy; try (now specialize (Hx l)); try (subst; now apply same_here).
          + apply same_here; [|assumption]. cbn. congruence.
          + apply same_here; [|assumption]. cbn. congruence.
          + apply same_here; [|assumption]. cbn. congruence.
          + apply same_here; [|assumption]. cbn. congruence.
        - destruct y as [| | | | |ls']; try easy. apply lit_rel_arr in Hy.
          change (same val_rel k p (Some (let (vs, w) := build_list alloc_lit ls w in alloc vs w)) (Some (let (vs, w) := build_list alloc_lit ls' w' in alloc vs w))).
          assert (exists k', incl k k' /\ Forall2 (val_rel k') (fst (build_list alloc_lit ls w)) (fst (build_list alloc_lit ls' w')) /\
                             world_rel k' p (snd (build_list alloc_lit ls w)) (snd (build_list alloc_lit ls' w'))) as (k1 & L1 & V1 & W1).
          { revert ls' Hy k w w' Hw. induction IH as [|x ls Hx IH IH']; intros ls' Hy k w w' Hw; inversion Hy; subst.
            - exists k. split; [apply incl_refl|]. split; [constructor|assumption].
            - rename y into x'. cbn. specialize (Hx _ H1 k p w w' Hw). destruct (alloc_lit x w) as [v w1], (alloc_lit x' w') as [v' w1'].
              destruct Hx as (k1 & L1 & V1 & W1). destruct (IH' _ H3 k1 w1 w1' W1) as (k2 & L2 & V2 & W2).
              change ((fix go (l : list literal) (w : world) {struct l} : list val * world := match l with [] => ([], w) | x0 :: l0 => let (v0, w0) := alloc_lit x0 w in let (vs, w2) := go l0 w0 in (v0 :: vs, w2) end)) with (build_list alloc_lit).
              destruct (build_list alloc_lit ls w1) as [vs w2], (build_list alloc_lit l' w1') as [vs' w2']. cbn in V2, W2 |- *.
              exists k2. split; [exact (incl_tran L1 L2)|]. split; [|assumption]. constructor; [exact (val_rel_le _ _ _ _ L2 V1)|assumption]. }
          destruct (build_list alloc_lit ls w) as [vs w1], (build_list alloc_lit ls' w') as [vs' w1']. cbn in V1, W1.
          destruct (alloc_rel _ _ _ _ _ _ W1 V1) as (k2 & L2 & V2 & W2). exists k2. split; [exact (incl_tran L1 L2)|auto]. }
      apply (G (LArr l) (LArr l0)); [now apply lit_rel_arr|assumption].
    - destruct v, v'; cbn in Hv; try easy; try congruence; try exact I. apply value_of_rel. apply Hr; tauto.
    - unfold param. destruct (contents v w) as [c|], (contents v' w') as [c'|]; try easy.
      pose proof (w_me _ _ _ _ _ _ _ _ _ _ _ _ Hw) as M. destruct Hc as [|x1 y1 c c' _ [|x2 y2 c2 c2' R2 _]]; try now apply same_here.
      apply same_here; [|assumption]. assert (is_nil (me w) = is_nil (me w')) as -> by (destruct (me w), (me w'); cbn in M; try easy; congruence).
      now destruct (is_nil (me w')).
    - destruct (contents v w) as [c|], (contents v' w') as [c'|]; try easy.
      destruct Hc as [|x1 y1 c c' R1 _]; try exact I. destruct x1, y1; cbn in R1; try easy; try congruence. injection R1 as ->. now apply same_here.
    - destruct (contents v w) as [c|], (contents v' w') as [c'|]; try easy. apply same_here; [|assumption]. cbn. now rewrite (Forall2_length Hc).
  Qed.
  Lemma binary_rel r r' k p w w' x v v' u u' : same_run r r' -> keeps L r -> world_rel k p w w' -> val_rel k v v' -> val_rel k u u' ->
    same val_rel k p (binary_impl r x v u w) (binary_impl r' x v' u' w').
  Proof.
    intros Hr Kr Hw Hv Hu. unfold OptimizeEngine.binary_impl. destruct (arith fadd fsub fmul fdiv frem x) as [f|].
    { destruct v, v'; cbn in Hv; try easy; try congruence; destruct u, u'; cbn in Hu; try easy; try congruence.
      - injection Hv as ->. injection Hu as ->. now apply same_here.
      - injection Hv as ->. injection Hu as ->. destruct (is_name _ _); [now apply same_here|exact I]. }
    names; try exact I.
    - destruct u as [| | | |b s q| |], u' as [| | | |b' s' q'| |]; cbn in Hu; try easy; try congruence. destruct Hu as (Hc & -> & ->).
      pose proof (value_of_rel _ _ _ _ (Hr b b' k p _ _ Hc (me_rel k p w w' v v' Hw Hv))) as H.
      destruct (value_of (r b _)) as [[x1 w1]|], (value_of (r' b' _)) as [[x1' w1']|]; try easy.
      destruct H as (k1 & L1 & V1 & W1). exists k1. split; [assumption|]. split; [assumption|]. apply me_rel; [assumption|]. eapply val_rel_le; [exact L1|]. eapply w_me; eauto.
    - destruct v, v'; cbn in Hv; try easy; try congruence. destruct u, u'; cbn in Hu; try easy; try congruence.
      destruct Hv as (? & -> & ->), Hu as (? & -> & ->).
      destruct mutable; [apply same_alloc; [assumption|]; constructor; [cbn; auto|]; constructor; [cbn; auto|constructor]|].
      apply same_here; [|assumption]. constructor; [cbn; auto|]. constructor; [cbn; auto|constructor].
    - destruct v, v'; cbn in Hv; try easy; try congruence.
      destruct (w_heap _ _ _ _ _ _ _ _ _ _ _ _ Hw _ _ Hv) as (c & c' & -> & -> & F). apply same_here; [cbn; now rewrite (Forall2_length F)|].
      apply update_rel; auto. apply Forall2_app; auto.
    - pose proof (contents_rel _ _ _ _ _ _ Hw Hv) as Hc. pose proof (contents_rel _ _ _ _ _ _ Hw Hu) as Hd.
      destruct (contents v w), (contents v' w'); try easy. destruct (contents u w), (contents u' w'); try easy.
      rewrite (numbers_rel _ _ _ Hc), (numbers_rel _ _ _ Hd). destruct (numbers l0); [|exact I]. destruct (numbers l2); [|exact I].
      apply same_alloc; [assumption|]. apply nums_rel.
  Qed.

  Lemma lit_rel_val k l l' : lit_rel l l' -> val_rel k (lit_val l) (lit_val l').
  Proof. intros H. pose proof (lit_vals k [l] [l'] (Forall2_cons _ _ H (Forall2_nil _))) as F. now inversion F. Qed.
  Theorem heap_congruence : congruence fneg fsqrt fadd fsub fmul fdiv frem finite L C.
  Proof.
    split; cbn [K le OptimizeSpec.Rv OptimizeSpec.Rw heap_corr].
    - intros k. apply incl_refl.
    - intros a b c. apply incl_tran.
    - intros a b v v'. apply val_rel_le.
    - intros. now apply lit_rel_val.
    - intros. now apply same_alloc.
    - intros. exact I.
    - intros. now apply unary_rel.
    - intros. now apply binary_rel.
    - intros. eapply w_me; eauto.
    - intros. now apply get_rel.
    - intros. now apply assign_rel.
    - intros. now apply assign_rel.
  Qed.
  Theorem heap_arithmetic : arithmetic fneg fsqrt fadd fsub fmul fdiv frem finite L.
  Proof.
    split; cbn [Val World lit unary_cmd binary_cmd heap_lang lit_val]; try reflexivity.
    - intros r c s w [<-|[<-|[]]] _; reflexivity.
    - intros r c s w [<-|[<-|[]]] _; reflexivity.
    - intros r c f x y w H _. cbn in H. repeat (destruct H as [H|H]; [injection H as <- <-; reflexivity|]). contradiction.
  Qed.
  Ltac split_option := repeat (match goal with H : context [match ?x with _ => _ end] |- _ => destruct x eqn:? end; try discriminate).
  Theorem heap_this : writable = false -> this_is_kept fneg fsqrt fadd fsub fmul fdiv frem finite L C.
  Proof.
    intros Hwr. split; cbn [Val World lit unary_cmd binary_cmd fresh nular this get set_global set_local heap_lang].
    - reflexivity.
    - discriminate.
    - intros r x u w v w' Kr H. unfold OptimizeEngine.unary_impl in H.
      repeat match goal with H : context [is_name ?x ?l] |- _ => destruct (is_name x l) end; try discriminate.
      + destruct u; try discriminate. now injection H as _ <-.
      + destruct u; try discriminate. now injection H as _ <-.
      + destruct u; try discriminate. now injection H as _ <-.
      + destruct u; try discriminate. now injection H as _ <-.
      + destruct u; try discriminate. apply Some_inj in H.
        assert (forall l w, me (snd (alloc_lit l w)) = me w) as G.
        { clear. induction l as [l Hl|ls IH] using lit_ind'; intros w; [destruct l; try reflexivity; now specialize (Hl l)|].
          change (me (snd (let (vs, w) := build_list alloc_lit ls w in alloc vs w)) = me w).
          assert (me (snd (build_list alloc_lit ls w)) = me w) as <-; [|now destruct (build_list alloc_lit ls w)].
          revert w. induction IH as [|x ls Hx IH IH']; intros w; [reflexivity|]. rewrite bl_cons. specialize (Hx w). destruct (alloc_lit x w) as [v w1].
          specialize (IH' w1). destruct (build_list alloc_lit ls w1). cbn in *. congruence. }
        specialize (G (LArr l) w). now rewrite H in G.
      + destruct u; try discriminate. eapply value_of_keeps; eauto.
      + unfold param in H. destruct (contents u w) as [[|y [|z l]]|]; try discriminate; now injection H as _ <-.
      + destruct (contents u w) as [[|[] l]|]; try discriminate; now injection H as _ <-.
      + destruct (contents u w); try discriminate; now injection H as _ <-.
    - intros r x a b w v w' Kr H. unfold OptimizeEngine.binary_impl in H. destruct (arith fadd fsub fmul fdiv frem x).
      { destruct a, b; try discriminate; [now injection H as _ <-|]. destruct (is_name _ _); [now injection H as _ <-|discriminate]. }
      repeat match goal with H : context [is_name ?x ?l] |- _ => destruct (is_name x l) end; try discriminate.
      + destruct b; try discriminate. destruct (value_of _) as [[x1 w1]|]; [|discriminate]. now injection H as _ <-.
      + destruct a, b; try discriminate. destruct mutable; now injection H as _ <-.
      + destruct a; try discriminate. destruct (nth_error _ _); [|discriminate]. now injection H as _ <-.
      + destruct (contents a w); [|discriminate]. destruct (contents b w); [|discriminate]. destruct (numbers _); [|discriminate]. destruct (numbers _); [|discriminate]. now injection H as _ <-.
    - intros x w v w' H. destruct (lookup _ _); [|discriminate]. now injection H as _ <-.
    - intros x v w w' H. unfold assign in H. rewrite Hwr in H. now injection H as <-.
    - intros x v w w' H. unfold assign in H. rewrite Hwr in H. now injection H as <-.
    - intros r r' k p w w' c c' Hr Kr Hw Hc.
      change (same val_rel k p
        (match c with
         | VCode b _ _ => match value_of (r b (Wld (heap w) (vars w) (me w))) with Some (v, w') => Some (v, Wld (heap w') (vars w') (me w)) | None => None end
         | _ => None end)
        (match c' with VCode b _ _ => value_of (r' b w') | _ => None end)).
      destruct c as [| | | |b s q| |], c' as [| | | |b' s' q'| |]; cbn in Hc; try easy; try congruence. destruct Hc as (Hc & -> & ->).
      assert (Wld (heap w) (vars w) (me w) = w) as -> by now destruct w.
      pose proof (value_of_rel _ _ _ _ (Hr b b' k p w w' Hc Hw)) as H.
      destruct (value_of (r b w)) as [[v w1]|] eqn:E; [|exact H]. rewrite <- (value_of_keeps r b w v w1 Kr E).
      now destruct w1.
  Qed.

  (** *** Arrays *)
  Lemma build_alloc l w : build L l w = alloc_lit l w.
  Proof.
    revert w. induction l as [l Hl|ls IH] using lit_ind'; intros w; [destruct l; try reflexivity; now specialize (Hl l)|].
    change ((let (vs, w) := build_list (build L) ls w in alloc vs w) = (let (vs, w) := build_list alloc_lit ls w in alloc vs w)).
    assert (build_list (build L) ls w = build_list alloc_lit ls w) as ->; [|reflexivity].
    revert w. induction IH as [|x ls Hx IH IH']; intros w; [reflexivity|].
    change (build_list (build L) (x :: ls) w) with (let (v, w) := build L x w in let (vs, w) := build_list (build L) ls w in (v :: vs, w)).
    rewrite bl_cons, Hx. destruct (alloc_lit x w) as [v w1]. now rewrite IH'.
  Qed.
  (** What [alloc_lit] makes: [v] has the contents [l], at addresses from [n] on. *)
  Fixpoint made (n : nat) (h : list (list val)) (v : val) (l : literal) : Prop :=
    match l with
    | LArr ls => exists a c, v = VRef a /\ (n <= a)%nat /\ nth_error h a = Some c /\
        (fix go (c : list val) (ls : list literal) {struct ls} : Prop := match ls, c with [], [] => True | y :: ls, x :: c => made n h x y /\ go c ls | _, _ => False end) c ls
    | l => v = lit_val l
    end.
  Lemma made_arr n h v ls : made n h v (LArr ls) <-> exists a c, v = VRef a /\ (n <= a)%nat /\ nth_error h a = Some c /\ Forall2 (made n h) c ls.
  Proof.
    cbn.
    assert (forall c, (fix go (c : list val) (ls : list literal) {struct ls} : Prop := match ls, c with [], [] => True | y :: ls, x :: c => made n h x y /\ go c ls | _, _ => False end) c ls <-> Forall2 (made n h) c ls) as E.
    { induction ls as [|y ls IH]; intros [|x c].
      - split; constructor.
      - split; intros H; [contradiction|inversion H].
      - split; intros H; [contradiction|inversion H].
      - rewrite IH. split; intros H; [constructor; tauto|inversion H; auto]. }
    split; intros (a & c & H1 & H2 & H3 & H4); exists a, c; repeat split; auto; now apply E.
  Qed.
  Lemma made_grow n m h x v l : (m <= n)%nat -> made n h v l -> made m (h ++ x) v l.
  Proof.
    intros Hm. revert v. induction l as [l Hl|ls IH] using lit_ind'; intros v H.
    - destruct l; try exact H. now specialize (Hl l).
    - rewrite made_arr in *. destruct H as (a & c & -> & Ha & Hc & Hs). exists a, c. repeat split; [lia|now apply nth_app_l|].
      clear -Hs IH. revert c Hs. induction IH as [|y ls Hx IH IH']; intros c Hs; inversion Hs; subst; constructor; auto.
  Qed.
  Lemma alloc_made l w : exists e, heap (snd (alloc_lit l w)) = heap w ++ e /\ vars (snd (alloc_lit l w)) = vars w /\ me (snd (alloc_lit l w)) = me w /\
    made (length (heap w)) (heap (snd (alloc_lit l w))) (fst (alloc_lit l w)) l.
  Proof.
    revert w. induction l as [l Hl|ls IH] using lit_ind'; intros w.
    - exists []. rewrite app_nil_r. destruct l; try (repeat split; reflexivity). now specialize (Hl l).
    - change (alloc_lit (LArr ls) w) with (let (vs, w) := build_list alloc_lit ls w in alloc vs w).
      assert (exists e, heap (snd (build_list alloc_lit ls w)) = heap w ++ e /\ vars (snd (build_list alloc_lit ls w)) = vars w /\ me (snd (build_list alloc_lit ls w)) = me w /\
        Forall2 (made (length (heap w)) (heap (snd (build_list alloc_lit ls w)))) (fst (build_list alloc_lit ls w)) ls) as (e & H1 & H2 & H3 & H4).
      { revert w. induction IH as [|x ls Hx IH IH']; intros w; [exists []; rewrite app_nil_r; repeat split; constructor|].
        rewrite bl_cons. destruct (Hx w) as (e1 & A1 & A2 & A3 & A4). destruct (alloc_lit x w) as [v w1]. cbn in A1, A2, A3, A4.
        destruct (IH' w1) as (e2 & B1 & B2 & B3 & B4). destruct (build_list alloc_lit ls w1) as [vs w2]. cbn in B1, B2, B3, B4 |- *.
        exists (e1 ++ e2). rewrite app_assoc, <- A1. repeat split; try congruence. constructor.
        - rewrite B1. eapply made_grow; [|exact A4]. lia.
        - eapply Forall2_impl; [|exact B4]. intros y l H. assert (heap w2 = heap w2 ++ []) as -> by now rewrite app_nil_r.
          eapply made_grow; [|exact H]. rewrite A1, app_length. lia. }
      destruct (build_list alloc_lit ls w) as [vs w1]. cbn in H1, H2, H3, H4 |- *. exists (e ++ [vs]). rewrite app_assoc, <- H1. repeat split; auto.
      apply made_arr. exists (length (heap w1)), vs. repeat split; [rewrite H1, app_length; lia|apply nth_app_last|].
      eapply Forall2_impl; [|exact H4]. intros y l H. eapply made_grow; [|exact H]. lia.
  Qed.

  Lemma pending_rel (k k' : mp) p ls v v' w1 w w' w1' : world_rel k p w w' -> alloc_lit (LArr ls) w' = (v', w1') -> incl k k' ->
    val_rel k' v v' -> world_rel k' p w1 w1' -> exists k'', incl k k'' /\ world_rel k'' ((v, ls) :: p) w1 w'.
  Proof.
    intros H B Hk Hv H1. exists k. split; [apply incl_refl|].
    destruct (alloc_made (LArr ls) w') as (e & E1 & E2 & E3 & E4). rewrite B in E1, E2, E3, E4. cbn [fst snd] in *.
    destruct H as [F I H V M P]. destruct H1 as [F1 I1 H1 V1 M1 P1].
    assert (forall x y z, val_rel k' x y -> val_rel k z y -> val_rel k x y) as BACK.
    { intros x y z. destruct x, y, z; cbn; try easy. intros X Z. apply Hk in Z as Z'. assert (a1 = a) as -> by eauto. exact Z. }
    assert (forall a b, In (a, b) k -> (b < length (heap w'))%nat) as BD.
    { intros a b Hab. destruct (H a b Hab) as (x & x' & _ & X & _). apply nth_error_Some. congruence. }
    split; auto.
    - intros a b Hab. destruct (H a b Hab) as (x & x' & X1 & X2 & X3). destruct (H1 a b (Hk _ Hab)) as (y & y' & Y1 & Y2 & Y3).
      exists y, x'. repeat split; auto. rewrite E1, (nth_app_l _ _ _ _ X2) in Y2. injection Y2 as <-.
      clear -X3 Y3 BACK. revert y Y3. induction X3; intros y0 Y3; inversion Y3; subst; constructor; eauto.
    - rewrite E2 in V1. clear -V V1 BACK. revert V V1. generalize (vars w1) (vars w) (vars w'). intros l1 l l' V. revert l1.
      induction V as [|x y l l' [Ex R] V IH]; intros l1 V1; inversion V1 as [|x1 y1 ? ? [Ex1 R1]]; subst; constructor; auto. split; [assumption|]. eapply BACK; eauto.
    - rewrite E3 in M1. eapply BACK; eauto.
    - constructor.
      + cbn [fst snd]. assert (forall l v v', val_rel k' v v' -> made (length (heap w')) (heap w1') v' l -> holds k (heap w1) v l) as G.
        { clear v v' B Hv E4. induction l as [l Hl|l IH] using lit_ind'; intros v v' Hv Hm.
          - rewrite holds_other by assumption. assert (v' = lit_val l) as -> by (destruct l; try exact Hm; now specialize (Hl l)).
            destruct l, v; cbn in Hv |- *; try easy.
          - apply made_arr in Hm as (a' & c' & -> & Ha & Hc & Hs). destruct v; cbn in Hv; try easy.
            destruct (H1 _ _ Hv) as (y & y' & Y1 & Y2 & Y3). assert (y' = c') as -> by congruence. apply holds_arr. exists a, y. repeat split; auto.
            + intros b Hab. assert (b = a') as -> by (apply (F1 a); auto). apply BD in Hab. lia.
            + clear -IH Y3 Hs. revert c' y Y3 Hs. induction IH as [|x l Hx IH IH']; intros c' y Y3 Hs; inversion Hs; subst; inversion Y3; subst; constructor; eauto. }
        eapply G; eauto.
      + eapply Forall_impl; [|exact P1]. intros [u lu] Hu. eapply holds_change; [|exact Hu]. intros a c Ha Hn. split; [assumption|]. intros b Hb. apply (Ha b). auto.
  Qed.

  Lemma param_held k p w w' v ls : world_rel k ((v, ls) :: p) w w' -> has_array_default (LArr ls) = false ->
    same val_rel k p (param v w) (param (VConst ls) w').
  Proof.
    intros H D. destruct (contents_held _ _ _ _ _ _ H) as (c & Ec & F). unfold param. rewrite Ec. cbn [contents].
    pose proof (w_me _ _ _ _ _ _ _ _ _ _ _ _ H) as M. apply rw_drop in H.
    destruct F as [|x1 y1 c ls _ [|x2 y2 c2 ls2 R F]]; try now apply same_here. cbn [map].
    apply same_here; [|assumption]. assert (is_nil (me w) = is_nil (me w')) as -> by (destruct (me w), (me w'); cbn in M; try easy; congruence).
    destruct (is_nil (me w')); [|assumption]. rewrite holds_other in R by (intros l ->; discriminate). eapply val_rel_le; [|exact R]. intros z [].
  Qed.
  Lemma random_held k p w w' v ls : world_rel k ((v, ls) :: p) w w' ->
    same val_rel k p (match contents v w with Some (VNum x :: _) => Some (VNum x, w) | _ => None end)
                     (match contents (VConst ls) w' with Some (VNum x :: _) => Some (VNum x, w') | _ => None end).
  Proof.
    intros H. destruct (contents_held _ _ _ _ _ _ H) as (c & Ec & F). rewrite Ec. cbn [contents]. apply rw_drop in H.
    destruct F as [|x1 y1 c ls R F]; [exact I|]. cbn [map]. destruct y1.
    6: { apply holds_arr in R as (a & d & -> & _). exact I. }
    all: rewrite holds_other in R by discriminate; destruct x1; cbn in R; try easy; try congruence. injection R as ->. now apply same_here.
  Qed.
  Definition nums (v : val) (w : world) : option (list N) := match contents v w with Some l => numbers l | None => None end.
  Lemma nums_held k p w w' v ls : world_rel k ((v, ls) :: p) w w' -> nums v w = nums (VConst ls) w'.
  Proof.
    intros H. destruct (contents_held _ _ _ _ _ _ H) as (c & Ec & F). unfold nums. rewrite Ec. cbn [contents]. eapply numbers_held; eauto.
  Qed.
  Lemma nums_same k p w w' v v' : world_rel k p w w' -> val_rel k v v' -> nums v w = nums v' w'.
  Proof.
    intros H R. pose proof (contents_rel _ _ _ _ _ _ H R) as E. unfold nums. destruct (contents v w), (contents v' w'); try easy. eapply numbers_rel; eauto.
  Qed.
  Lemma vector_impl r u v w : binary_impl r (bs "vectoradd") u v w =
    match nums u w, nums v w with Some a, Some b => Some (alloc (map VNum (zip fadd a b)) w) | _, _ => None end.
  Proof.
    change (match contents u w, contents v w with
          | Some a, Some b => match numbers a, numbers b with Some a, Some b => Some (alloc (map VNum (zip fadd a b)) w) | _, _ => None end
          | _, _ => None end = match nums u w, nums v w with Some a, Some b => Some (alloc (map VNum (zip fadd a b)) w) | _, _ => None end).
    unfold nums. destruct (contents u w), (contents v w); try reflexivity. now destruct (numbers l).
  Qed.
  Lemma vector_rel r r' k p w w' c u v u' v' : world_rel k p w w' -> nums u w = nums u' w' -> nums v w = nums v' w' ->
    In c [bs "vectoradd"; bs "vectordiff"; bs "vectorcrossproduct"; bs "vectordotproduct"] ->
    same val_rel k p (binary_impl r c u v w) (binary_impl r' c u' v' w').
  Proof.
    intros Hw E1 E2 [<-|[<-|[<-|[<-|[]]]]]; try exact I. rewrite !vector_impl, E1, E2.
    destruct (nums u' w'); [|exact I]. destruct (nums v' w'); [|exact I]. apply same_alloc; [assumption|apply nums_rel].
  Qed.
  Theorem heap_arrays : mutable = false -> arrays fneg fsqrt fadd fsub fmul fdiv frem finite L C.
  Proof.
    intros Hmut. split; cbn [Val World lit unary_cmd binary_cmd fresh nular this get set_global set_local heap_lang K le OptimizeSpec.Rv OptimizeSpec.Rw heap_corr lit_val].
    - intros k k' p ls v v' w1 w w' w1' H B. rewrite build_alloc in B. eapply pending_rel; eauto.
    - intros. now rewrite build_alloc.
    - intros r k p a b v u w w' H Hv Hu (c & s & q & ->) (c' & s' & q' & ->). cbn [lit_val] in *.
      destruct v; cbn in Hv; try easy; try congruence. destruct u; cbn in Hu; try easy; try congruence.
      destruct Hv as (? & -> & ->), Hu as (? & -> & ->). unfold OptimizeEngine.binary_impl. rewrite Hmut.
      apply same_here; [|assumption]. constructor; [cbn; auto|]. constructor; [cbn; auto|constructor].
    - intros r r' k p c ls v w w' Hr Kr H X.
      destruct X as [[-> _]|[[-> D]|[<-|[<-|[]]]]]; try exact I; [now apply param_held|now apply random_held].
    - intros r r' k p c ls u u' v w w' Hr Kr H Hu X.
      destruct X as [[-> _]|[[[<-|[<-|[<-|[<-|[]]]]] D]|X]]; try exact I.
      eapply vector_rel; eauto; [eapply rw_drop; eauto| |]; [eapply nums_same; eauto|eapply nums_held; eauto].
    - intros r r' k p c ls u u' v w w' Hr Kr H Hu X.
      eapply vector_rel; eauto; [eapply rw_drop; eauto| |]; [eapply nums_held; eauto|eapply nums_same; eauto].
    - intros r r' k p c ls lt v u w w' Hr Kr H X.
      eapply vector_rel; eauto; [eapply rw_drop, rw_drop; eauto| |eapply nums_held; eauto].
      eapply nums_held, rw_drop; eauto.
  Qed.
  Theorem heap_documented : writable = false -> mutable = false -> documented fneg fsqrt fadd fsub fmul fdiv frem finite L C.
  Proof. intros H1 H2. exact (conj heap_congruence (conj heap_arithmetic (conj (heap_this H1) (heap_arrays H2)))). Qed.
End Meets.
