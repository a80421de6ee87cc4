(** Lexicographic comparison of byte strings and stable sorting.
    Rust's [str::cmp] compares the UTF-8 bytes lexicographically. Rust's [slice::sort_by] is a
    stable sort; the result of a stable sort is unique, so it is modelled by stable insertion sort. *)
From Verif Require Import Base.Tactics.
From Coq Require Export Permutation Sorted.
Local Open Scope N_scope.

(** [Ord for str] / [Ord for [u8]]. *)
Fixpoint cmp_bytes (a b : list N) : comparison :=
  match a, b with
  | [], [] => Eq
  | [], _ :: _ => Lt
  | _ :: _, [] => Gt
  | x :: a', y :: b' =>
      match x ?= y with
      | Eq => cmp_bytes a' b'
      | c => c
      end
  end.

Definition eqb_bytes (a b : list N) : bool :=
  match cmp_bytes a b with Eq => true | _ => false end.

(** Stable sort by a key, ascending. *)
Section SortBy.
  Context {A : Type} (key : A -> list N).

  Definition key_gtb (x y : A) : bool :=
    match cmp_bytes (key x) (key y) with Gt => true | _ => false end.

  Fixpoint insert_by (x : A) (l : list A) : list A :=
    match l with
    | [] => [x]
    | y :: r => if key_gtb x y then y :: insert_by x r else x :: l
    end.

  Fixpoint sort_by (l : list A) : list A :=
    match l with
    | [] => []
    | x :: r => insert_by x (sort_by r)
    end.
End SortBy.

(** ** Lemmas *)

Lemma cmp_bytes_refl a : cmp_bytes a a = Eq.
Proof. induction a; cbn; [auto|]. now rewrite N.compare_refl. Qed.

Lemma cmp_bytes_eq a b : cmp_bytes a b = Eq <-> a = b.
Proof.
  split; [|intros <-; apply cmp_bytes_refl].
  revert b; induction a as [|x a IH]; intros [|y b]; cbn; try discriminate; auto.
  destruct (x ?= y) eqn:E; try discriminate. apply N.compare_eq_iff in E as ->.
  intro H. f_equal. auto.
Qed.

Lemma eqb_bytes_spec a b : eqb_bytes a b = true <-> a = b.
Proof.
  unfold eqb_bytes. rewrite <- cmp_bytes_eq. destruct (cmp_bytes a b); split; auto; discriminate.
Qed.

Lemma eqb_bytes_refl a : eqb_bytes a a = true.
Proof. now apply eqb_bytes_spec. Qed.

Lemma eqb_bytes_false a b : eqb_bytes a b = false <-> a <> b.
Proof.
  rewrite <- eqb_bytes_spec. destruct (eqb_bytes a b); split; intro H; try discriminate; auto.
  exfalso; auto.
Qed.

Lemma eqb_bytes_sym a b : eqb_bytes a b = eqb_bytes b a.
Proof.
  destruct (eqb_bytes a b) eqn:E.
  - apply eqb_bytes_spec in E as ->. symmetry. apply eqb_bytes_refl.
  - symmetry. apply eqb_bytes_false. apply eqb_bytes_false in E. congruence.
Qed.

Lemma cmp_bytes_antisym a b : cmp_bytes b a = CompOpp (cmp_bytes a b).
Proof.
  revert b; induction a as [|x a IH]; intros [|y b]; cbn; auto.
  rewrite N.compare_antisym. destruct (x ?= y); cbn; auto.
Qed.

Lemma cmp_bytes_lt_trans a b c : cmp_bytes a b = Lt -> cmp_bytes b c = Lt -> cmp_bytes a c = Lt.
Proof.
  revert b c; induction a as [|x a IH]; intros [|y b] [|z c]; cbn; auto; try discriminate.
  destruct (N.compare_spec x y) as [->|E1|E1]; try discriminate;
  destruct (N.compare_spec y z) as [->|E2|E2]; try discriminate; intros H1 H2;
    rewrite ?N.compare_refl; eauto;
    match goal with |- match ?u ?= ?v with _ => _ end = _ =>
      replace (u ?= v) with Lt by (symmetry; apply N.compare_lt_iff; lia) end; auto.
Qed.

Lemma cmp_bytes_le_trans a b c : cmp_bytes a b <> Gt -> cmp_bytes b c <> Gt -> cmp_bytes a c <> Gt.
Proof.
  destruct (cmp_bytes a b) eqn:E1; destruct (cmp_bytes b c) eqn:E2; intros H1 H2; try congruence.
  - apply cmp_bytes_eq in E1 as ->. congruence.
  - apply cmp_bytes_eq in E1 as ->. congruence.
  - apply cmp_bytes_eq in E2 as <-. congruence.
  - rewrite (cmp_bytes_lt_trans a b c); congruence.
Qed.

Section SortByLemmas.
  Context {A : Type} (key : A -> list N).

  Definition key_le (x y : A) : Prop := cmp_bytes (key x) (key y) <> Gt.

  Lemma key_gtb_false x y : key_gtb key x y = false <-> key_le x y.
  Proof. unfold key_gtb, key_le. destruct (cmp_bytes _ _); split; congruence. Qed.

  Lemma key_gtb_true x y : key_gtb key x y = true -> key_le y x.
  Proof.
    unfold key_gtb, key_le. rewrite (cmp_bytes_antisym (key x) (key y)).
    destruct (cmp_bytes (key x) (key y)); cbn; congruence.
  Qed.

  Lemma key_le_trans x y z : key_le x y -> key_le y z -> key_le x z.
  Proof. apply cmp_bytes_le_trans. Qed.

  Lemma key_le_refl x : key_le x x.
  Proof. unfold key_le. rewrite cmp_bytes_refl. congruence. Qed.

  Lemma key_le_antisym x y : key_le x y -> key_le y x -> key x = key y.
  Proof.
    unfold key_le. rewrite (cmp_bytes_antisym (key x)). destruct (cmp_bytes (key x) (key y)) eqn:E; cbn; try congruence.
    intros _ _. now apply cmp_bytes_eq.
  Qed.

  Lemma insert_by_perm x l : Permutation (insert_by key x l) (x :: l).
  Proof.
    induction l as [|y r IH]; cbn; [auto|]. destruct (key_gtb key x y); [|auto].
    rewrite IH. constructor.
  Qed.

  Lemma sort_by_perm l : Permutation (sort_by key l) l.
  Proof. induction l; cbn; [auto|]. rewrite insert_by_perm. auto. Qed.

  Lemma insert_by_sorted x l : StronglySorted key_le l -> StronglySorted key_le (insert_by key x l).
  Proof.
    induction l as [|y r IH]; intro H; cbn.
    - constructor; constructor.
    - inversion H as [|? ? Hr Hy]; subst. destruct (key_gtb key x y) eqn:E.
      + constructor; [auto|]. apply Forall_forall. intros z Hz.
        apply (Permutation_in _ (insert_by_perm x r)) in Hz. destruct Hz as [<-|Hz].
        * now apply key_gtb_true.
        * rewrite Forall_forall in Hy; auto.
      + apply key_gtb_false in E. constructor; [auto|]. constructor; [auto|].
        rewrite Forall_forall in *. intros z Hz. eapply key_le_trans; eauto.
  Qed.

  Lemma sort_by_sorted l : StronglySorted key_le (sort_by key l).
  Proof. induction l; cbn; [constructor|]. now apply insert_by_sorted. Qed.

  Lemma insert_by_head x l : Forall (key_le x) l -> insert_by key x l = x :: l.
  Proof.
    destruct l as [|y r]; intro H; cbn; [auto|]. inversion H as [|? ? Hy]; subst.
    apply key_gtb_false in Hy. now rewrite Hy.
  Qed.

  Lemma sort_by_id l : StronglySorted key_le l -> sort_by key l = l.
  Proof.
    induction 1 as [|x r Hr IH Hx]; cbn; [auto|]. rewrite IH. now apply insert_by_head.
  Qed.

  Lemma sort_by_idem l : sort_by key (sort_by key l) = sort_by key l.
  Proof. apply sort_by_id, sort_by_sorted. Qed.

  (** With pairwise distinct keys a sorted permutation is unique. *)
  Lemma sorted_unique l1 l2 :
    StronglySorted key_le l1 -> StronglySorted key_le l2 -> Permutation l1 l2 ->
    NoDup (map key l1) -> l1 = l2.
  Proof.
    revert l2; induction l1 as [|x r IH]; intros l2 H1 H2 HP HN.
    - apply Permutation_nil in HP. auto.
    - destruct l2 as [|y s]; [apply Permutation_sym, Permutation_nil in HP; discriminate|].
      inversion H1 as [|? ? Hr Hx]; inversion H2 as [|? ? Hs Hy]; subst.
      cbn in HN. inversion HN as [|? ? Hnx HNr]; subst.
      assert (x = y).
      { assert (Hin1 : In y (x :: r)) by (eapply Permutation_in; [symmetry; eauto | left; auto]).
        assert (Hin2 : In x (y :: s)) by (eapply Permutation_in; [eauto | left; auto]).
        destruct Hin1 as [|Hin1]; [auto|]. destruct Hin2 as [|Hin2]; [auto|].
        rewrite Forall_forall in Hx, Hy. specialize (Hx _ Hin1). specialize (Hy _ Hin2).
        exfalso. apply Hnx. rewrite (key_le_antisym _ _ Hx Hy). now apply in_map. }
      subst y. f_equal. apply IH; auto. eapply Permutation_cons_inv; eauto.
  Qed.

  Lemma sort_by_perm_eq l1 l2 : Permutation l1 l2 -> NoDup (map key l1) -> sort_by key l1 = sort_by key l2.
  Proof.
    intros HP HN. apply sorted_unique; try apply sort_by_sorted.
    - now rewrite !sort_by_perm.
    - eapply Permutation_NoDup; [|exact HN]. apply Permutation_map. symmetry. apply sort_by_perm.
  Qed.

  Lemma sort_by_length l : length (sort_by key l) = length l.
  Proof. apply Permutation_length, sort_by_perm. Qed.
End SortByLemmas.
