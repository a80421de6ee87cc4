(** C43. *)
From Coq Require Import String.
From Verif Require Import Base.Tactics Base.Bytes Base.Ascii Base.Sort Bin.CaseModel Bin.CaseSpec.
Local Open Scope N_scope.
Local Open Scope list_scope.

Lemma ascii_lower_app : forall a b, ascii_lower (a ++ b) = ascii_lower a ++ ascii_lower b.
Proof. intros. unfold ascii_lower. apply map_app. Qed.

Section P.
  Context (get : list N -> option (list N)) (Hget : table_ok get).
  Notation step := (step get).
  Notation check_buffer := (check_buffer get).

  Lemma check_buffer_is : forall o b, b <> [] -> check_buffer o b = rev (usual get b) ++ o.
  Proof. intros o [|x b] H; [contradiction|]. unfold check_buffer, usual. now destruct (get (x :: b)). Qed.
  Lemma check_buffer_nil : forall o, check_buffer o [] = o.
  Proof. reflexivity. Qed.
  Lemma usual_lower : forall b, ascii_lower (usual get b) = ascii_lower b.
  Proof. intros b. unfold usual. destruct (get b) eqn:E; [now apply Hget|reflexivity]. Qed.
  Lemma check_buffer_lower : forall o b, ascii_lower (rev (check_buffer o b)) = ascii_lower (rev o ++ b).
  Proof.
    intros o b. destruct b as [|x b]; [now rewrite app_nil_r|]. rewrite check_buffer_is by discriminate.
    now rewrite rev_app_distr, rev_involutive, !ascii_lower_app, usual_lower.
  Qed.
  (** The word is empty inside strings and comments. *)
  Definition tidy (s : state) : Prop := in_quotes s = true \/ in_comment s <> NoComment -> buffer s = [].
  Lemma step_tidy : forall s c, tidy s -> tidy (step s c) /\ ascii_lower (rev (out (step s c)) ++ buffer (step s c)) = ascii_lower (rev (out s) ++ buffer s ++ [c]).
  Proof.
    intros [o b q k m] c H. unfold tidy in *. cbn [in_quotes in_comment buffer out] in *.
    assert (F : forall o', ascii_lower (rev o') = ascii_lower (rev o ++ b) -> ascii_lower (rev (c :: o') ++ []) = ascii_lower (rev o ++ b ++ [c])).
    { intros o' E. cbn [rev]. rewrite app_nil_r, app_assoc. rewrite (ascii_lower_app (rev o')), E, <- ascii_lower_app. reflexivity. }
    pose proof (F _ (check_buffer_lower o b)) as F1.
    assert (F2 : ascii_lower (rev (c :: rev b ++ o) ++ []) = ascii_lower (rev o ++ b ++ [c])) by (apply F; now rewrite rev_app_distr, rev_involutive).
    assert (F3 : b = [] -> ascii_lower (rev (c :: o) ++ b) = ascii_lower (rev o ++ b ++ [c])).
    { intros ->. cbn [rev app]. now rewrite app_nil_r. }
    destruct q.
    { specialize (H (or_introl eq_refl)). subst b. destruct k, m; cbn [CaseModel.step]; try destruct (c =? 34); cbn [in_quotes in_comment buffer out]; auto. }
    destruct k.
    2, 3: assert (Hb : b = []) by (apply H; right; discriminate); subst b; destruct m; cbn [CaseModel.step]; destruct (c =? 10); cbn [in_quotes in_comment buffer out]; auto;
          try destruct (c =? 47); cbn [in_quotes in_comment buffer out]; auto.
    destruct m; cbn [CaseModel.step].
    - repeat match goal with |- context [if ?x =? ?y then _ else _] => destruct (x =? y) end; try destruct ((c =? 41) || (c =? 44)); cbn [in_quotes in_comment buffer out]; auto.
    - destruct (word_char c); cbn [in_quotes in_comment buffer out].
      { split; [intros [|]; congruence|reflexivity]. }
      repeat match goal with |- context [if ?x =? ?y then _ else _] => destruct (x =? y) end; cbn [in_quotes in_comment buffer out]; auto.
      destruct (eqb_bytes b (bs "LOG")); auto.
  Qed.
  Lemma run_tidy : forall l s, tidy s -> ascii_lower (rev (out (fold_left step l s)) ++ buffer (fold_left step l s)) = ascii_lower (rev (out s) ++ buffer s ++ l).
  Proof.
    induction l as [|c l IH]; intros s H; cbn [fold_left]; [now rewrite app_nil_r|]. destruct (step_tidy s c H) as [T E]. rewrite IH by auto.
    rewrite app_assoc, ascii_lower_app, E. rewrite <- ascii_lower_app. now rewrite <- !app_assoc.
  Qed.

  (** Whatever the file, only the case of letters changes; so also its length stays. *)
  Theorem C43_only_case : forall s, ascii_lower (fix_case get s) = ascii_lower s.
  Proof.
    intros s. unfold fix_case. rewrite check_buffer_lower. rewrite run_tidy; [reflexivity|]. intros [H|H]; [discriminate|]. now destruct H.
  Qed.

  (** ** Pieces *)
  Definition finish (s : state) : list N := rev (check_buffer (out s) (buffer s)).
  Lemma step_word : forall w o b, Forall (fun c => word_char c = true) w -> fold_left step w (State o b false NoComment false) = State o (b ++ w) false NoComment false.
  Proof.
    induction w as [|c w IH]; intros o b H; cbn [fold_left]; [now rewrite app_nil_r|]. inversion H; subst. cbn [CaseModel.step].
    match goal with E : word_char c = true |- _ => rewrite E end. rewrite IH by auto. now rewrite <- app_assoc.
  Qed.
  Lemma word_char_not : forall c, word_char c = true -> (c =? 34) = false /\ (c =? 47) = false /\ (c =? 10) = false /\ (c =? 42) = false /\ (c =? 41) = false /\ (c =? 44) = false /\ (c =? 40) = false.
  Proof. intros c H. repeat split; apply N.eqb_neq; intros ->; discriminate H. Qed.
  Lemma step_word_macro : forall w o, Forall (fun c => word_char c = true) w -> fold_left step w (State o [] false NoComment true) = State (rev w ++ o) [] false NoComment true.
  Proof.
    induction w as [|c w IH]; intros o H; cbn [fold_left]; [reflexivity|]. inversion H as [|? ? Hc Hw]; subst. cbn [CaseModel.step].
    destruct (word_char_not c Hc) as (-> & -> & -> & -> & -> & -> & _). cbn [orb]. rewrite check_buffer_nil, IH by auto. cbn [rev]. now rewrite <- app_assoc.
  Qed.
  Lemma step_quoted : forall s o m, ~ In 34 s -> fold_left step s (State o [] true NoComment m) = State (rev s ++ o) [] true NoComment m.
  Proof.
    induction s as [|c s IH]; intros o m H; cbn [fold_left]; [reflexivity|]. cbn [CaseModel.step]. destruct (N.eqb_spec c 34) as [->|]; [destruct H; now left|].
    destruct m; rewrite IH by auto with datatypes; cbn [rev]; now rewrite <- app_assoc.
  Qed.
  Lemma step_line : forall s o m, ~ In 10 s -> fold_left step s (State o [] false Single m) = State (rev s ++ o) [] false Single m.
  Proof.
    induction s as [|c s IH]; intros o m H; cbn [fold_left]; [reflexivity|]. cbn [CaseModel.step]. destruct (N.eqb_spec c 10) as [->|]; [destruct H; now left|].
    rewrite IH by auto with datatypes; cbn [rev]; now rewrite <- app_assoc.
  Qed.
  Lemma step_block : forall s o m, ~ within 42 47 s -> (ends_with 42 o = true -> hd 0 s <> 47) -> fold_left step s (State o [] false Multi m) = State (rev s ++ o) [] false Multi m.
  Proof.
    induction s as [|c s IH]; intros o m H G; cbn [fold_left]; [reflexivity|]. cbn [rev]. rewrite <- app_assoc. cbn [app].
    assert (H' : ~ within 42 47 s) by (intros (x & y & ->); apply H; now exists (c :: x), y).
    assert (G' : ends_with 42 (c :: o) = true -> hd 0 s <> 47).
    { cbn [ends_with]. intros E. apply N.eqb_eq in E as ->. destruct s as [|d s]; cbn [hd]; [discriminate|]. intros ->. apply H. now exists [], s. }
    rewrite <- IH by auto. f_equal. cbn [CaseModel.step]. destruct (N.eqb_spec c 10) as [->|]; [reflexivity|]. destruct (N.eqb_spec c 47) as [->|]; [|reflexivity].
    destruct (ends_with 42 o); [|reflexivity]. now destruct (G eq_refl).
  Qed.

  Definition pend (b : list N) : list piece := match b with [] => [] | _ => [Word b] end.
  Lemma usual_nonempty : forall b, b <> [] -> usual get b <> [].
  Proof. intros b H E. apply H. pose proof (usual_lower b) as Q. rewrite E in Q. now destruct b. Qed.
  Lemma ends_usual : forall o b c, b <> [] -> Forall (fun c => word_char c = true) b -> c < 65 -> word_char c = false -> ends_with c (check_buffer o b) = false.
  Proof.
    intros o b c Hb Hw Hc Hn. rewrite check_buffer_is by auto. pose proof (usual_lower b) as Q. revert Q. generalize (usual_nonempty b Hb). generalize (usual get b) as u. intros u Hu Q.
    destruct (exists_last Hu) as (u' & x & ->). destruct (exists_last Hb) as (b' & y & ->). rewrite !ascii_lower_app in Q. apply app_inj_tail in Q as [_ Q].
    rewrite rev_app_distr. cbn [rev app ends_with]. apply N.eqb_neq. intros ->. apply Forall_app in Hw as [_ Hw]. inversion Hw as [|? ? Hy _]; subst.
    unfold ascii_lower in Q. cbn [map] in Q. unfold word_char in *. destruct ((65 <=? c) && (c <=? 90)) eqn:?, ((65 <=? y) && (y <=? 90)) eqn:?; lia.
  Qed.

  Definition tail_ok (b : list N) (ps : list piece) : Prop := pieces_ok (pend b ++ ps).
  Definition safe (o : list N) (ps : list piece) : Prop := match ps with p :: _ => begins_comment p -> ends_with 47 o = false | [] => True end.
  Lemma pieces_run : forall ps o b m, tail_ok b ps -> (b <> [] -> m = false) -> safe (check_buffer o b) ps ->
    finish (fold_left step (text ps) (State o b false NoComment m)) = rev o ++ text (fixed get m (pend b ++ ps)).
  Proof.
    induction ps as [|p ps IH]; intros o b m Hok Hm Hs.
    - unfold finish. cbn [text flat_map fold_left out buffer]. rewrite app_nil_r. destruct b as [|x b]; cbn [pend fixed text flat_map]; [now rewrite app_nil_r|].
      rewrite Hm by discriminate. unfold is_log, is_macro; cbn [opens andb fixed flat_map show]. rewrite check_buffer_is, rev_app_distr, rev_involutive, app_nil_r by discriminate. reflexivity.
    - cbn [text flat_map]. rewrite fold_left_app. fold (text ps). unfold tail_ok in Hok.
      assert (Hp : piece_ok p /\ match ps with q :: _ => apart p q | [] => True end /\ pieces_ok ps) by (destruct b; [exact Hok|destruct Hok as (_ & _ & Hok); exact Hok]).
      destruct Hp as (Hp & Ha & Hr).
      assert (Hb : b <> [] -> Forall (fun c => word_char c = true) b /\ match p with Word _ => False | _ => True end).
      { destruct b; [contradiction|]. intros _. destruct Hok as ([_ H1] & H2 & _). split; auto. }
      (* what is pending, for pieces that neither open a parenthesis nor are words *)
      assert (HD : forall f, opens (p :: ps) = false -> 
         (forall m, fixed get m (p :: ps) = p :: f m) ->
         text (fixed get m (pend b ++ p :: ps)) = (match b with [] => [] | _ => usual get b end) ++ show p ++ text (f m)).
      { intros f Hk Hf. destruct b as [|x b]; cbn [pend app]; [now rewrite Hf|]. rewrite Hm by discriminate.
        assert (K : forall w, is_log w (p :: ps) = false /\ is_macro w (p :: ps) = false) by (intros w; unfold is_log, is_macro; rewrite Hk; auto).
        set (w := x :: b) in *. change (fixed get false (Word w :: p :: ps)) with (Word (if is_log w (p :: ps) then w else usual get w) :: fixed get (is_macro w (p :: ps)) (p :: ps)).
        destruct (K w) as [-> ->]. rewrite Hf. reflexivity. }
      assert (HC : rev (check_buffer o b) = rev o ++ match b with [] => [] | _ => usual get b end).
      { destruct b; [now rewrite app_nil_r|]. rewrite check_buffer_is by discriminate. now rewrite rev_app_distr, rev_involutive. }
      assert (HS : forall c o', c <> 47 -> safe (c :: o') ps).
      { intros c o' Hc. destruct ps as [|q ps']; cbn [safe]; [exact I|]. intros _. cbn [ends_with]. now apply N.eqb_neq. }
      destruct p as [w|s|s|s|c]; cbn [show piece_ok] in *.
      + assert (b = []) as -> by (destruct b; [reflexivity|destruct Hb; [discriminate|contradiction]]). cbn [pend app] in *. destruct Hp as [Hw Hc]. destruct m; cbn [fixed].
        * rewrite step_word_macro by auto. rewrite IH.
          -- cbn [pend app text flat_map show]. rewrite rev_app_distr, rev_involutive, <- app_assoc. reflexivity.
          -- exact Hr.
          -- intros []. reflexivity.
          -- rewrite check_buffer_nil. destruct ps as [|q ps]; cbn [safe]; [exact I|]. intros _. destruct (exists_last Hw) as (w' & y & ->). rewrite rev_app_distr. cbn [rev app ends_with].
             apply Forall_app in Hc as [_ Hc]. inversion Hc as [|? ? Hy]; subst. now apply word_char_not in Hy.
        * rewrite step_word by auto. cbn [app]. rewrite IH.
          -- destruct w as [|x w]; [contradiction|]. reflexivity.
          -- destruct w as [|x w]; [contradiction|]. exact Hok.
          -- reflexivity.
          -- destruct ps as [|q ps]; cbn [safe]; [exact I|]. intros _. apply ends_usual; auto. reflexivity.
      + rewrite fold_left_app. rewrite fold_left_app.
        assert (E : fold_left step [34] (State o b false NoComment m) = State (34 :: check_buffer o b) [] true NoComment m) by (destruct m; reflexivity).
        rewrite E, step_quoted by auto. cbn [fold_left]. assert (E2 : step (State (rev s ++ 34 :: check_buffer o b) [] true NoComment m) 34 = State (34 :: rev s ++ 34 :: check_buffer o b) [] false NoComment m) by (destruct m; reflexivity).
        rewrite E2, IH; [|exact Hr|intros []; reflexivity|apply HS; discriminate]. rewrite (HD (fun m => fixed get m ps)) by reflexivity. cbn [pend app show rev]. rewrite rev_app_distr, rev_involutive. cbn [rev]. rewrite HC, <- !app_assoc. reflexivity.
      + rewrite !fold_left_app. cbn [safe begins_comment] in Hs.
        assert (E : fold_left step [47; 47] (State o b false NoComment m) = State (47 :: 47 :: check_buffer o b) [] false Single m).
        { cbn [fold_left]. destruct m; cbn [CaseModel.step]; change (word_char 47) with false; cbn [N.eqb Pos.eqb]; rewrite (Hs I); reflexivity. }
        rewrite E, step_line by auto. cbn [fold_left].
        assert (E2 : step (State (rev s ++ 47 :: 47 :: check_buffer o b) [] false Single m) 10 = State (10 :: rev s ++ 47 :: 47 :: check_buffer o b) [] false NoComment m) by (destruct m; reflexivity).
        rewrite E2, IH; [|exact Hr|intros []; reflexivity|apply HS; discriminate]. rewrite (HD (fun m => fixed get m ps)) by reflexivity. cbn [pend app show rev]. rewrite rev_app_distr, rev_involutive. cbn [rev]. rewrite HC, <- !app_assoc. reflexivity.
      + rewrite !fold_left_app. cbn [safe begins_comment] in Hs. destruct Hp as [Hi Hh].
        assert (E : fold_left step [47; 42] (State o b false NoComment m) = State (42 :: 47 :: check_buffer o b) [] false Multi m).
        { cbn [fold_left]. destruct m; cbn [CaseModel.step]; change (word_char 47) with false; cbn [N.eqb Pos.eqb]; rewrite (Hs I); reflexivity. }
        rewrite E, step_block by auto. cbn [fold_left].
        assert (E2 : step (step (State (rev s ++ 42 :: 47 :: check_buffer o b) [] false Multi m) 42) 47 = State (47 :: 42 :: rev s ++ 42 :: 47 :: check_buffer o b) [] false NoComment m) by (destruct m; reflexivity).
        rewrite E2, IH; [|exact Hr|intros []; reflexivity|destruct ps; cbn [safe]; [exact I|intros Q; now destruct (Ha Q)]].
        rewrite (HD (fun m => fixed get m ps)) by reflexivity. cbn [pend app show rev]. rewrite rev_app_distr, rev_involutive. cbn [rev]. rewrite HC, <- !app_assoc. reflexivity.
      + destruct Hp as [Hw Hq]. apply N.eqb_neq in Hq. cbn [fold_left].
        assert (S1 : c = 47 -> safe (c :: check_buffer o b) ps).
        { intros ->. destruct ps as [|q ps]; cbn [safe]; [exact I|]. intros Q. now destruct (Ha eq_refl Q). }
        assert (S2 : safe (c :: check_buffer o b) ps) by (destruct (N.eq_dec c 47); auto).
        destruct (N.eq_dec c 40) as [->|H40].
        * (* parenthesis *)
          destruct m.
          -- assert (b = []) as -> by (destruct b; [auto|now specialize (Hm ltac:(discriminate))]).
             change (step (State o [] false NoComment true) 40) with (State (40 :: o) [] false NoComment true). rewrite IH; [|exact Hr|intros []; reflexivity|apply HS; discriminate].
             cbn [pend app fixed text flat_map show rev]. cbn [N.eqb Pos.eqb orb negb andb]. rewrite <- app_assoc. reflexivity.
          -- cbn [CaseModel.step]. change (word_char 40) with false. cbn [N.eqb Pos.eqb]. rewrite IH; [|exact Hr|intros []; reflexivity|apply HS; discriminate]. destruct b as [|x b].
             ++ change (eqb_bytes [] (bs "LOG")) with false. cbn [negb andb pend app fixed text flat_map show rev N.eqb Pos.eqb orb]. rewrite check_buffer_nil, <- app_assoc. reflexivity.
             ++ set (w := x :: b) in *. cbn [negb andb]. replace (pend w) with [Word w] by reflexivity. cbn [app fixed text flat_map show]. unfold is_log, is_macro. cbn [opens].
                cbn [N.eqb Pos.eqb orb negb andb]. rewrite andb_true_r. destruct (eqb_bytes w (bs "LOG")); cbn [rev].
                ** rewrite rev_app_distr, rev_involutive, <- !app_assoc. reflexivity.
                ** rewrite check_buffer_is, rev_app_distr, rev_involutive, <- !app_assoc by discriminate. reflexivity.
        * assert (E : step (State o b false NoComment m) c = State (c :: check_buffer o b) [] false NoComment (m && negb ((c =? 41) || (c =? 44)))).
          { apply N.eqb_neq in H40. assert (B1 : c = 47 \/ c = 42 -> ends_with 47 (check_buffer o b) = false) by exact Hs.
            assert (BB : m = true -> b = []) by (destruct m; [destruct b; [auto|now specialize (Hm ltac:(discriminate))]|discriminate]).
            destruct m; cbn [CaseModel.step]; rewrite ?Hw, ?Hq, ?H40.
            - rewrite (BB eq_refl) in *. destruct (N.eqb_spec c 47) as [->|]; [rewrite (B1 ltac:(auto)); reflexivity|]. destruct (N.eqb_spec c 10) as [->|]; [reflexivity|].
              destruct (N.eqb_spec c 42) as [->|]; [rewrite (B1 ltac:(auto)); reflexivity|]. destruct ((c =? 41) || (c =? 44)); reflexivity.
            - destruct (N.eqb_spec c 47) as [->|]; [rewrite (B1 ltac:(auto)); reflexivity|]. destruct (N.eqb_spec c 10) as [->|]; [reflexivity|].
              destruct (N.eqb_spec c 42) as [->|]; [rewrite (B1 ltac:(auto)); reflexivity|]. reflexivity. }
          rewrite E, IH; [|exact Hr|intros []; reflexivity|exact S2].
          rewrite (HD (fun m => fixed get (m && negb ((c =? 41) || (c =? 44))) ps)).
          -- cbn [pend app show rev]. rewrite HC, <- !app_assoc. reflexivity.
          -- now apply N.eqb_neq.
          -- intros. reflexivity.
  Qed.

  (** Strings and comments stay; words become commands as they are usually written, but in the first argument of a macro. *)
  Theorem C43_only_commands : forall ps, pieces_ok ps -> fix_case get (text ps) = text (fixed get false ps).
  Proof.
    intros ps H. unfold fix_case. pose proof (pieces_run ps [] [] false H ltac:(intros []; reflexivity)) as Q. cbn [pend app rev] in Q. apply Q.
    rewrite check_buffer_nil. destruct ps; cbn; auto.
  Qed.
End P.

(** A table with some commands. *)
Definition some_commands (w : list N) : option (list N) :=
  find (fun n => eqb_bytes (ascii_lower n) (ascii_lower w)) [bs "select"; bs "player"; bs "alive"; bs "setPos"].
Lemma some_commands_ok : table_ok some_commands.
Proof. intros w n H. apply find_some in H as [_ H]. now apply eqb_bytes_spec. Qed.
(** Strings in single quotes change. *)
Theorem C43_single_quotes_refuted : exists get, table_ok get /\ fix_case get (bs "x = 'ALIVE'") = bs "x = 'alive'".
Proof. exists some_commands. split; [exact some_commands_ok|]. vm_compute. reflexivity. Qed.
(** The beginning of a comment can be taken for a whole, and what is in the comment changes. *)
Theorem C43_comment_refuted : exists get, table_ok get /\ fix_case get (bs "/*/ ALIVE */") = bs "/*/ alive */".
Proof. exists some_commands. split; [exact some_commands_ok|]. vm_compute. reflexivity. Qed.
(** A second run can change more than the first. *)
Theorem C43_again_refuted : exists get, table_ok get /\ fix_case get (bs "SELECT(PLAYER)") = bs "select(PLAYER)" /\ fix_case get (bs "select(PLAYER)") = bs "select(player)".
Proof. exists some_commands. split; [exact some_commands_ok|]. split; vm_compute; reflexivity. Qed.

(** A case. *)
Definition some_pieces : list piece :=
  [Word (bs "GVAR"); Other 40; Word (bs "ALIVE"); Other 41; Other 32; Word (bs "SETPOS"); Other 32; Quoted (bs "ALIVE /* "); Other 59; LineComment (bs " ALIVE");
   Word (bs "Player"); Other 47; Word (bs "playEr2"); BlockComment (bs "ALIVE **"); Word (bs "alivE")].
Example some_pieces_ok : pieces_ok some_pieces.
Proof.
  repeat match goal with |- pieces_ok _ => cbn [pieces_ok some_pieces piece_ok apart begins_comment] | |- _ /\ _ => split end;
    try exact I; try discriminate; try reflexivity; try (intros H; cbn in H; intuition discriminate); try (repeat constructor).
  intros (x & y & E). cbn in E.
  do 8 (destruct x as [|? x]; cbn [app] in E; [discriminate E|]; apply (f_equal (@tl N)) in E; cbn [tl] in E). destruct x; discriminate E.
Qed.
Example some_pieces_fixed : fix_case some_commands (text some_pieces) =
  bs "GVAR(ALIVE) setPos ""ALIVE /* "";// ALIVE" ++ [10] ++ bs "player/playEr2/*ALIVE ***/alive".
Proof. vm_compute. reflexivity. Qed.

Print Assumptions C43_only_case.
Print Assumptions C43_only_commands.
Print Assumptions C43_single_quotes_refuted.
Print Assumptions C43_comment_refuted.
Print Assumptions C43_again_refuted.
