(** Messages on a wire: a length, then that many bytes, written and read in two steps each. *)
From Verif Require Import Base.Tactics Base.Bytes Base.Text.
Local Open Scope N_scope.
Local Open Scope list_scope.

Section Wire.
  Context {M : Type} (put : M -> bytes).
  Hypothesis full : forall m, put m <> [].

  Definition head_of (m : M) : bytes := u32_bytes (blen (put m) mod 2 ^ 32).
  Definition pieces (l : list M) : list bytes := flat_map (fun m => [head_of m; put m]) l.

  (** [wire ws c r l]: with [ws] still to be written, [c] written and not read, and a length read if [r], the messages [l] are on
      their way. *)
  Inductive wire : list bytes -> bytes -> option N -> list M -> Prop :=
  | w_poll l1 l2 : wire (pieces l2) (concat (pieces l1)) None (l1 ++ l2)
  | w_poll_mid l1 m l2 : wire (put m :: pieces l2) (concat (pieces l1) ++ head_of m) None (l1 ++ m :: l2)
  | w_body m l1 l2 : wire (pieces l2) (put m ++ concat (pieces l1)) (Some (blen (put m))) (m :: l1 ++ l2)
  | w_body_mid m l1 m' l2 : wire (put m' :: pieces l2) (put m ++ concat (pieces l1) ++ head_of m') (Some (blen (put m))) (m :: l1 ++ m' :: l2)
  | w_torn m l2 : wire (put m :: pieces l2) [] (Some (blen (put m))) (m :: l2).

  Lemma pieces_app l l' : pieces (l ++ l') = pieces l ++ pieces l'.
  Proof. clear full. unfold pieces. now rewrite flat_map_app. Qed.
  Lemma pieces_even l : Nat.odd (length (pieces l)) = false.
  Proof. clear full. induction l as [|m l IH]; [reflexivity|]. cbn [pieces flat_map app length]. exact IH. Qed.
  Lemma pieces_odd x l : Nat.odd (length (x :: pieces l)) = true.
  Proof. clear full. cbn [length]. rewrite Nat.odd_succ, <- Nat.negb_odd, pieces_even. reflexivity. Qed.
  Lemma length_pieces l : length (pieces l) = (2 * length l)%nat.
  Proof. clear full. induction l as [|m l IH]; [reflexivity|]. cbn [pieces flat_map app length]. unfold pieces in IH. rewrite IH. lia. Qed.

  Lemma wire_nil : wire [] [] None [].
  Proof. exact (w_poll [] []). Qed.

  Lemma wire_push ws c r l l' : wire ws c r l -> wire (ws ++ pieces l') c r (l ++ l').
  Proof.
    intros [l1 l2|l1 m l2|m l1 l2|m l1 m' l2|m l2].
    - rewrite <- pieces_app, <- app_assoc. apply w_poll.
    - rewrite <- app_comm_cons, <- pieces_app, <- app_assoc. apply (w_poll_mid l1 m (l2 ++ l')).
    - rewrite <- pieces_app, <- app_comm_cons, <- app_assoc. apply w_body.
    - rewrite <- app_comm_cons, <- pieces_app, <- app_comm_cons, <- app_assoc. apply (w_body_mid m l1 m' (l2 ++ l')).
    - rewrite <- app_comm_cons, <- pieces_app. apply w_torn.
  Qed.

  Lemma snoc_bytes l m : (concat (pieces l) ++ head_of m) ++ put m = concat (pieces (l ++ [m])).
  Proof. rewrite pieces_app, concat_app. cbn [pieces flat_map app concat]. now rewrite app_nil_r, <- app_assoc. Qed.

  Lemma wire_write x ws c r l : wire (x :: ws) c r l -> wire ws (c ++ x) r l.
  Proof.
    intros W. remember (x :: ws) as w eqn:Ew. destruct W as [l1 l2|l1 m l2|m l1 l2|m l1 m' l2|m l2].
    - destruct l2 as [|m l2]; [discriminate|]. injection Ew as <- <-. apply w_poll_mid.
    - injection Ew as <- <-. rewrite snoc_bytes. replace (l1 ++ m :: l2) with ((l1 ++ [m]) ++ l2) by now rewrite <- app_assoc. apply w_poll.
    - destruct l2 as [|m' l2]; [discriminate|]. injection Ew as <- <-. rewrite <- app_assoc. apply w_body_mid.
    - injection Ew as <- <-. rewrite <- !app_assoc, (app_assoc (concat (pieces l1))), snoc_bytes.
      replace (l1 ++ m' :: l2) with ((l1 ++ [m']) ++ l2) by now rewrite <- app_assoc. apply w_body.
    - injection Ew as <- <-. cbn [app]. rewrite <- (app_nil_r (put m)) at 1. apply (w_body m [] l2).
  Qed.

  Lemma head_length m : length (head_of m) = 4%nat.
  Proof. apply le_bytes_length. Qed.
  Lemma head_val m : blen (put m) < 2 ^ 32 - 1 -> le_val (head_of m) = blen (put m).
  Proof.
    clear full. intros short. unfold head_of, u32_bytes. rewrite le_val_bytes.
    - apply N.mod_small. lia.
    - apply N.mod_lt. lia.
  Qed.
  Lemma head_not_all m : blen (put m) < 2 ^ 32 - 1 -> forallb (N.eqb 255) (head_of m) = false.
  Proof.
    clear full. intros B. destruct (forallb _ _) eqn:F; [|reflexivity]. exfalso. rewrite <- head_val in B by exact B. pose proof (head_length m) as L.
    destruct (head_of m) as [|a [|b [|c [|d [|e x]]]]]; try discriminate L. cbn [forallb] in F. repeat (apply andb_prop in F as [?%N.eqb_eq F]). subst.
    revert B. vm_compute. discriminate.
  Qed.

  (** Looking for a message: none is there, or the length of the first one is. *)
  Lemma wire_look ws c l : wire ws c None l ->
    (c = [] /\ exists l2, l = l2 /\ ws = pieces l2) \/
    exists m l' c', l = m :: l' /\ take_exact 4 c = Some (head_of m, c') /\ wire ws c' (Some (blen (put m))) l.
  Proof. clear full.
    intros W. remember None as r eqn:Er. destruct W as [l1 l2|l1 m l2| | |]; try discriminate.
    - destruct l1 as [|m l1]; [left; split; [reflexivity|now exists l2]|]. right. exists m, (l1 ++ l2), (put m ++ concat (pieces l1)).
      split; [reflexivity|]. split; [|apply w_body]. cbn [pieces flat_map app concat]. apply take_exact_app'. apply head_length.
    - right. destruct l1 as [|m1 l1].
      + exists m, l2, []. split; [reflexivity|]. split; [|apply w_torn]. cbn [pieces flat_map concat app]. rewrite <- (app_nil_r (head_of m)) at 1. apply take_exact_app'. apply head_length.
      + exists m1, (l1 ++ m :: l2), (put m1 ++ concat (pieces l1) ++ head_of m). split; [reflexivity|]. split; [|apply w_body_mid].
        cbn [pieces flat_map app concat]. rewrite <- !app_assoc. apply take_exact_app'. apply head_length.
  Qed.

  (** Reading the rest: it is there, or has not been written yet. *)
  Lemma wire_read ws c n l : wire ws c (Some n) l -> exists m l', l = m :: l' /\ n = blen (put m) /\
    ((exists c', take_exact (N.to_nat n) c = Some (put m, c') /\ wire ws c' None l') \/
     (take_exact (N.to_nat n) c = None /\ c = [] /\ exists l2, ws = put m :: pieces l2)).
  Proof.
    intros W. remember (Some n) as r eqn:Er. destruct W as [| |m l1 l2|m l1 m' l2|m l2]; try discriminate; injection Er as <-; eexists _, _; (split; [reflexivity|]); (split; [reflexivity|]).
    - left. eexists. split; [|apply w_poll]. apply take_exact_app'. unfold blen. lia.
    - left. eexists. split; [|apply w_poll_mid]. apply take_exact_app'. unfold blen. lia.
    - right. split; [|eauto]. apply take_exact_none. cbn [length]. pose proof (full m) as F. unfold blen. destruct (put m); [congruence|]. cbn [length]. lia.
  Qed.

  (** When the other side is not in between, the rest of the first message is there as well. *)
  Lemma wire_look_whole ws c l m c' : wire ws c None l -> Nat.odd (length ws) = false -> take_exact 4 c = Some (head_of m, c') -> c' <> [].
  Proof using full.
    intros W O T. remember None as r eqn:Er. destruct W as [l1 l2|l1 x l2| | |]; try discriminate.
    - destruct l1 as [|x l1]; [discriminate|]. cbn [pieces flat_map app concat] in T. rewrite take_exact_app' in T by apply head_length. apply (f_equal (fun o => match o with Some (_, y) => y | None => [] end)) in T. cbv beta iota in T. subst c'.
      intros E. apply app_eq_nil in E as [E _]. now apply (full x).
    - rewrite pieces_odd in O. discriminate.
  Qed.

  Lemma wire_room ws c r l : wire ws c r l -> (match r with None => 0 | Some _ => 1 end <= 2 * length l)%nat.
  Proof. clear. intros []; cbn [length]; lia. Qed.

  (** Number of writes and reads that are left. *)
  Definition left_over (ws : list bytes) (r : option N) (l : list M) : nat :=
    (length ws + 2 * length l - match r with None => 0 | Some _ => 1 end)%nat.
End Wire.
