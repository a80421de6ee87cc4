(** Concrete files that meet the hypotheses of the theorems in Props.v, and files that show where a property stops
    being true of the code. *)
From Coq Require Import String.
From Verif Require Import Base.Tactics Base.Bytes Base.Ascii Base.Text Preproc.Model Preproc.Fuel Preproc.Spec Preproc.Expand
  Preproc.BlockSpec Preproc.Blocks Preproc.Invariants Preproc.LexModel Preproc.LexSpec Preproc.LexProofs Preproc.Plain Preproc.Props.
Local Open Scope N_scope.
Local Open Scope list_scope.

Definition lines (l : list string) : text := flat_map (fun s => bs s ++ [10]) l.
(** A workspace: the file [a] has the text [src], [b.hpp] the text [inc]. *)
Definition ws_parse (src inc : text) (p : text) : run (list token) :=
  if text_eqb p (bs "a") then parse_text ascii_letter ascii_other p src
  else if text_eqb p (bs "b.hpp") then parse_text ascii_letter ascii_other p inc else Err PE24_parse.
Definition ws_locate (_ r : text) : option (text * bool) := if text_eqb r (bs "b.hpp") then Some (r, false) else None.
Definition pp (checked : bool) (src inc : text) (n : nat) : run (state * list output) :=
  preprocess checked ws_locate (ws_parse src inc) None N (digits_val 0) N.ltb N.leb n (bs "a").
Definition text_of (r : run (state * list output)) : run text :=
  match r with Ok (_, o) => Ok (toks_text (flat_map out_toks o)) | Err c => Err c | Panic => Panic | NoFuel => NoFuel end.

(** ** C23: blocks *)
Definition src1 := lines ["#define F(x) [x]"; "#ifdef F"; "a F(1)"; "#else"; "b"; "#endif"]%string.
Example src1_text : text_of (pp true src1 [] 60) = Ok (lines ["a [1]"]%string).
Proof. vm_compute. reflexivity. Qed.
Fixpoint split_lines (ts cur : list token) : list pline :=
  match ts with
  | [] => []
  | t :: r => if is_newline (t_sym t) then Line (rev cur) t :: split_lines r [] else split_lines r (t :: cur)
  end.
Definition toks1 : list token := Eval vm_compute in match ws_parse src1 [] (bs "a") with Ok ts => ts | _ => [] end.
Definition lines1 := Eval vm_compute in split_lines toks1 [].
Definition no_line := Line [] (Tok Eoi (Pos (LC 0 0 0) (LC 0 0 0) [])).
Definition ln (i : nat) := nth i lines1 no_line.
Definition prog1 : prog := Then (ln 0) (IfElse (ln 1) (Then (ln 2) Done) (ln 3) (Then (ln 4) Done) (ln 5) Done).

Ltac each := let t := fresh in let H := fresh in intros t H; cbn [In app] in H; repeat (destruct H as [<-|H]); try contradiction; try (split; discriminate); try reflexivity.
Definition within (l : pline) : bool := forallb (fun t => negb (is_newline (t_sym t)) && negb (is_eoi (t_sym t))) (on l) && is_newline (t_sym (newline l)).
Lemma within_good l : within l = true -> good l.
Proof.
  unfold within. intro H. apply andb_prop in H. destruct H as [A B]. split; [destruct (t_sym (newline l)); try discriminate; reflexivity|].
  intros t Ht. rewrite forallb_forall in A. specialize (A t Ht). destruct (t_sym t); cbn in A; split; try discriminate A; discriminate.
Qed.
Lemma dir_line l h c w args : within l = true -> on l = h :: c :: args -> t_sym h = Hash -> t_sym c = Word w -> is_directive l c w args.
Proof. intros A B C D. split; [now apply within_good|]. split; [exact D|]. exists [], h. split; [intros ? []|]. auto. Qed.
Ltac directive_here := eapply dir_line; reflexivity.
Ltac text_line :=
  split; [split; [reflexivity|each]|exists []; eexists; split; [each|]; split; [reflexivity|split; [reflexivity|discriminate]]].
Notation exec1 := (exec None N (digits_val 0) N.ltb N.leb ws_locate (ws_parse src1 [])).
Definition tk (i j : nat) := nth j (on (ln i)) (newline no_line).
Definition lparen := tk 0 4.
Lemma not_computed1 k : (text_eqb k (bs "__COUNTER__") || text_eqb k (bs "__COUNTER_RESET__") || text_eqb k (bs "__FILE__") ||
  text_eqb k (bs "__FILE_NAME__") || text_eqb k (bs "__FILE_SHORT__") || text_eqb k (bs "__LINE__"))%bool = false -> ~ computed k.
Proof.
  intros H C. unfold computed in C. repeat (destruct C as [->|C]; [discriminate H|]). subst k. discriminate H.
Qed.
Lemma not_refused1 w : (text_eqb w (bs "__EXEC") || is_unsupported w)%bool = false -> ~ refused w.
Proof. intros H [->|C]; [discriminate H|]. rewrite C, Bool.orb_true_r in H. discriminate. Qed.
Example prog1_source : ws_parse src1 [] (bs "a") = Ok (source_of prog1 ++ [last toks1 (tk 0 0)]).
Proof. vm_compute. reflexivity. Qed.
Definition at1 := Pos (p_start (t_pos (tk 0 8))) (p_end (t_pos (tk 0 10))) (bs "a").
Definition main1 : entry := (tk 0 3, Func at1 [tk 0 5] [tk 0 8; tk 0 9; tk 0 10], FromFile [bs "a"]).
Definition g1 := update nothing (bs "F") (Some main1).
Lemma define1 : defines_macro [tk 0 2; tk 0 3; tk 0 4; tk 0 5; tk 0 6; tk 0 7; tk 0 8; tk 0 9; tk 0 10] (tk 0 3) (snd (fst main1)).
Proof.
  refine (D_func [tk 0 2] (tk 0 3) (bs "F") (tk 0 4) [tk 0 5] [tk 0 5] (tk 0 6) [tk 0 7] [tk 0 8; tk 0 9; tk 0 10] _ _ _ _ _ _ _ _); try reflexivity; try each.
  - refine (R_one [] (tk 0 5) (bs "x") [] _ _ _); try reflexivity; each.
  - intros (a & t & E & Et). apply (f_equal (fun l => last l (tk 0 0))) in E. rewrite last_last in E. cbn in E. subst t. discriminate.
Qed.
Lemma holds1 : holds None N (digits_val 0) N.ltb N.leb g1 0 (ln 1) 0 true.
Proof.
  refine (H_ifdef _ _ _ _ _ _ _ (ln 1) (tk 1 1) [tk 1 2] (tk 1 3) (bs "F") [] true _ _ _ _ _); try reflexivity; try each; [directive_here|].
  split; auto. intros _. right. split; [discriminate|exact I].
Qed.
Lemma use1 : expand None (Env g1 None) None None 0 (on (ln 2)) 0
  [Direct (tk 2 0); Direct (tk 2 1); Macro (tk 2 2) [Direct (tk 0 8); Macro (tk 0 9) [Direct (tk 2 4)]; Direct (tk 0 10)]].
Proof.
  refine (X_word _ _ _ _ _ (tk 2 0) (bs "a") _ _ _ _ _ _ _); [reflexivity|now apply not_refused1| |].
  { left. intros [C|[C _]]; [revert C; now apply not_computed1|apply C; reflexivity]. }
  refine (X_plain _ _ _ _ _ (tk 2 1) _ _ _ _ _); [exact I|].
  refine (X_use _ _ _ _ _ (tk 2 2) (bs "F") _ _ _ [Macro (tk 2 2) [Direct (tk 0 8); Macro (tk 0 9) [Direct (tk 2 4)]; Direct (tk 0 10)]] _ _ _ _ _ _ _ _);
    [reflexivity|now apply not_refused1| |discriminate| |apply X_nil].
  { right. split; [discriminate|exact I]. }
  refine (U_call _ _ _ _ (tk 2 2) 0 at1 [tk 0 5] [tk 0 8; tk 0 9; tk 0 10] (FromFile [bs "a"]) (tk 2 3) [tk 2 4; tk 2 5] _ _ [[tk 2 4]] _
            [Direct (tk 0 8); Macro (tk 0 9) [Direct (tk 2 4)]; Direct (tk 0 10)] (bs "F") _ _ _ _ _ _ _).
  - reflexivity.
  - apply M_macro with (tk 0 3); [now apply not_computed1|reflexivity].
  - intros [_ [_ H]]. now vm_compute in H.
  - reflexivity.
  - refine (A_plain _ _ _ _ _ (tk 2 4) _ _ _ [] [] _ _); [exact I|]. apply A_close. reflexivity.
  - reflexivity.
  - refine (X_plain _ _ _ _ _ (tk 0 8) _ _ _ _ _); [exact I|].
    refine (X_use _ _ _ _ _ (tk 0 9) (bs "x") _ _ _ [Macro (tk 0 9) [Direct (tk 2 4)]] _ _ _ _ _ _ _ _);
      [reflexivity|now apply not_refused1| |discriminate| |].
    + right. split; discriminate.
    + refine (U_argument _ _ _ _ (tk 0 9) _ [tk 2 4] _ (bs "x") _ _); [reflexivity|]. apply M_macro with (tk 0 5); [now apply not_computed1|reflexivity].
    + refine (X_plain _ _ _ _ _ (tk 0 10) _ _ _ _ _); [exact I|]. apply X_nil.
Qed.
Definition out1 := [Direct (tk 2 0); Direct (tk 2 1); Macro (tk 2 2) [Direct (tk 0 8); Macro (tk 0 9) [Direct (tk 2 4)]; Direct (tk 0 10)]; Direct (newline (ln 2))].
Notation exec_in P := (exec None N (digits_val 0) N.ltb N.leb ws_locate P).
Lemma first_runs P : exec_in P [bs "a"] nothing 0 (Then (ln 0) Done) g1 0 [].
Proof.
  refine (E_define _ _ _ _ _ _ _ _ _ _ (ln 0) (tk 0 1) _ _ (snd (fst main1)) _ g1 0 [] _ define1 _ _); [directive_here|reflexivity|apply E_done].
Qed.
Lemma yes_runs P : exec_in P [bs "a"] g1 0 (Then (ln 2) Done) g1 0 out1.
Proof. refine (E_text _ _ _ _ _ _ _ _ _ _ (ln 2) _ _ _ _ _ [] _ use1 _); [text_line|apply E_done]. Qed.
Example prog1_runs : exec_in (ws_parse src1 []) [bs "a"] nothing 0 prog1 g1 0 out1.
Proof.
  refine (E_define _ _ _ _ _ _ _ _ _ _ (ln 0) (tk 0 1) _ _ (snd (fst main1)) _ g1 0 out1 _ define1 _ _); [directive_here|reflexivity|].
  refine (E_else_yes _ _ _ _ _ _ _ _ _ _ (ln 1) _ (ln 3) _ (ln 5) _ _ (tk 3 1) [] (tk 5 1) [] g1 _ out1 _ _ [] holds1 (yes_runs _) _ _ _ _ _ _);
    [directive_here|each| |directive_here|each|apply E_done].
  apply K_text; [text_line|apply K_done].
Qed.
Example C23_runs_src1 : exists n0, forall n, (n0 <= n)%nat -> exists s, pp true src1 [] n = Ok (s, settled out1) /\ if_stack (ifs s) = [].
Proof. refine (C23_blocks_run_as_read true _ _ _ _ _ _ _ (bs "a") prog1 _ _ _ _ prog1_source eq_refl prog1_runs). Qed.

(** A file whose conditions only test names: what is left are the lines of the branches that hold. *)
Definition src2 := lines ["#define F(x) [x]"; "#ifdef F"; "a"; "#ifndef F"; "b"; "#endif"; "#else"; "c"; "#endif"]%string.
Definition toks2 : list token := Eval vm_compute in match ws_parse src2 [] (bs "a") with Ok ts => ts | _ => [] end.
Definition lines2 := Eval vm_compute in split_lines toks2 [].
Definition l2 (i : nat) := nth i lines2 no_line.
Definition prog2 : prog := IfElse (l2 1) (Then (l2 2) (If (l2 3) (Then (l2 4) Done) (l2 5) Done)) (l2 6) (Then (l2 7) Done) (l2 8) Done.
Definition is_F (w : text) : bool :=
  text_eqb w (bs "F") || (text_eqb w (bs "__COUNTER__") || text_eqb w (bs "__COUNTER_RESET__") || text_eqb w (bs "__FILE__") ||
  text_eqb w (bs "__FILE_NAME__") || text_eqb w (bs "__FILE_SHORT__") || text_eqb w (bs "__LINE__"))%bool.
Lemma is_F_visible w : is_F w = true <-> visible (Env g1 None) w.
Proof.
  unfold is_F, visible, lookup. cbn [inside globals]. unfold g1, update, nothing. split.
  - intro H. apply Bool.orb_true_iff in H. destruct H as [H|H].
    + right. destruct (text_eqb_spec w (bs "F")) as [E|]; [|discriminate]. rewrite E. split; [discriminate|exact I].
    + left. unfold computed.
      repeat match type of H with (_ || _)%bool = true => apply Bool.orb_true_iff in H; destruct H as [H|H] end;
        match type of H with text_eqb _ ?y = true => destruct (text_eqb_spec w y); [auto 10|discriminate] end.
  - intros [H|[H _]].
    + destruct H as [->|[->|[->|[->|[->| ->]]]]]; reflexivity.
    + destruct (text_dec w (bs "F")) as [->|]; [reflexivity|congruence].
Qed.
Example prog2_source : ws_parse src2 [] (bs "a") = Ok (source_of (Then (ln 0) Done) ++ source_of prog2 ++ [last toks2 (tk 0 0)]).
Proof. vm_compute. reflexivity. Qed.
Ltac tidy_text := split; [reflexivity|let t := fresh in let H := fresh in intros t H; cbn in H; destruct H as [<-|H]; [|contradiction]; cbn; split; [now apply not_refused1|reflexivity]].
Ltac tidy_dir := split; [reflexivity|do 5 eexists; repeat split; auto; reflexivity].
Ltac tidy_kw := split; [reflexivity|do 2 eexists; repeat split; auto; reflexivity].
Example prog2_tidy : tidy is_F prog2.
Proof. cbn [tidy prog2]. repeat match goal with |- _ /\ _ => split | |- True => exact I end; try tidy_text; try tidy_dir; try tidy_kw. Qed.
Example C23_selects_src2 : exists n0, forall n, (n0 <= n)%nat -> exists s out, pp true src2 [] n = Ok (s, out) /\ out_text out = bs "a" ++ [10].
Proof.
  refine (C23_selected_lines true _ _ _ _ _ _ _ (bs "a") (Then (ln 0) Done) prog2 _ g1 0 [] is_F prog2_source eq_refl (first_runs _) _ is_F_visible prog2_tidy).
  intros ? [].
Qed.

(** ** C24 *)
Definition src3 := lines ["#define F(x) [x]"; "#ifdef F"; "a F(1)"; "#else"; "b"; "#else"; "#endif"]%string.
Definition toks3 : list token := Eval vm_compute in match ws_parse src3 [] (bs "a") with Ok ts => ts | _ => [] end.
Definition lines3 := Eval vm_compute in split_lines toks3 [].
Definition l3 (i : nat) := nth i lines3 no_line.
Example C24_second_else_src3 : exists n0, forall n, (n0 <= n)%nat -> pp true src3 [] n = Err PE17_double_else.
Proof.
  refine (C24_second_else_rejected true ws_locate (ws_parse src3 []) None N (digits_val 0) N.ltb N.leb (bs "a") (Then (ln 0) Done) (ln 1) (Then (ln 2) Done) (ln 3) (Then (ln 4) Done)
    (l3 5) (line_toks (l3 6) ++ [last toks3 (tk 0 0)]) g1 0 [] true 0 (tk 3 1) [] (nth 1 (on (l3 5)) (tk 0 0)) [] _ (first_runs _) holds1 _ _ _ _ _ _).
  - vm_compute. reflexivity.
  - do 3 eexists. apply yes_runs.
  - directive_here.
  - each.
  - apply K_text; [text_line|apply K_done].
  - split; [|exact I]. intros (c & a & _ & _ & ws & h & B & T & E).
    destruct ws as [|w ws]; [discriminate E|]. injection E as <- _. specialize (B _ (or_introl eq_refl)). discriminate B.
  - directive_here.
Qed.
Definition src4 := lines ["#define F(x) [x]"; "#endif"; "b"]%string.
Definition toks4 : list token := Eval vm_compute in match ws_parse src4 [] (bs "a") with Ok ts => ts | _ => [] end.
Definition lines4 := Eval vm_compute in split_lines toks4 [].
Definition l4 (i : nat) := nth i lines4 no_line.
Lemma b_runs l P g : g (bs "b") = None -> within l = true -> map t_sym (on l) = [Word (bs "b")] ->
  exec_in P [bs "a"] g 0 (Then l Done) g 0 (map Direct (line_toks l)).
Proof.
  intros Hg W M. destruct l as [[|t [|? ?]] nl]; try discriminate. assert (t_sym t = Word (bs "b")) as T by (apply (f_equal (hd Eoi)) in M; exact M).
  refine (E_text _ _ _ _ _ _ _ _ _ _ _ _ 0 [Direct t] _ _ [] _ _ _); [|refine (X_word _ _ _ _ _ t (bs "b") _ _ _ T _ _ _)|apply E_done].
  - split; [now apply within_good|]. exists [], [t]. split; [intros ? []|]. split; [reflexivity|]. rewrite T. split; [reflexivity|discriminate].
  - now apply not_refused1.
  - left. intros [C|[C _]]; [revert C; now apply not_computed1|now apply C].
  - apply X_nil.
Qed.
Example C24_stray_endif_src4 : exists n0, forall n, (n0 <= n)%nat -> exists s, pp true src4 [] n = Ok (s, map Direct (line_toks (l4 2))).
Proof.
  refine (C24_stray_endif_ignored true ws_locate (ws_parse src4 []) None N (digits_val 0) N.ltb N.leb (bs "a") (Then (ln 0) Done) (l4 1) (Then (l4 2) Done) (last toks4 (tk 0 0)) g1 0 []
    (nth 1 (on (l4 1)) (tk 0 0)) [] g1 0 _ _ _ (first_runs _) _ _ (b_runs _ _ _ _ _ _)); try reflexivity; [directive_here|each].
Qed.
Definition src5 := lines ["#define F(x) [x]"; "#else"; "b"]%string.
Definition toks5 : list token := Eval vm_compute in match ws_parse src5 [] (bs "a") with Ok ts => ts | _ => [] end.
Definition lines5 := Eval vm_compute in split_lines toks5 [].
Definition l5 (i : nat) := nth i lines5 no_line.
Example C24_stray_else_src5 : exists n0, forall n, (n0 <= n)%nat -> pp true src5 [] n = Panic.
Proof.
  refine (C24_stray_else_panics true ws_locate (ws_parse src5 []) None N (digits_val 0) N.ltb N.leb (bs "a") (Then (ln 0) Done) (l5 1) (line_toks (l5 2) ++ [last toks5 (tk 0 0)]) g1 0 []
    (nth 1 (on (l5 1)) (tk 0 0)) [] _ _ (first_runs _) _); try reflexivity; directive_here.
Qed.
(** What is not true of the code: a second else is rejected in every block. Here the else branch has a block of its
    own, the second else is accepted, and both else branches are written. *)
Theorem C24_nested_second_else_refuted :
  text_of (pp true (lines ["#ifdef A"; "1"; "#else"; "2"; "#ifdef B"; "3"; "#endif"; "#else"; "4"; "#endif"]%string) [] 80) = Ok (lines ["2"; "4"]%string).
Proof. vm_compute. reflexivity. Qed.
(** Without overflow checks the first stray else passes, and the second panics. *)
Theorem C24_stray_else_release_refuted :
  text_of (pp false (lines ["#else"; "b"]%string) [] 40) = Ok (lines ["b"]%string) /\ pp false (lines ["#else"; "#else"]%string) [] 40 = Panic.
Proof. vm_compute. auto. Qed.

(** ** C25 *)
Definition src6 := lines ["#define F(x) [x]"; "F(1)"]%string.
Definition toks6 : list token := Eval vm_compute in match ws_parse src6 [] (bs "a") with Ok ts => ts | _ => [] end.
Definition l6 := Eval vm_compute in nth 1 (split_lines toks6 []) no_line.
Definition t6 (i : nat) := nth i (on l6) (tk 0 0).
Example C25_substitutes_src6 : exists n0, forall n, (n0 <= n)%nat -> exists s, pp true src6 [] n =
  Ok (s, [Macro (t6 0) [Direct (tk 0 8); Macro (tk 0 9) [Direct (t6 2)]; Direct (tk 0 10)]; Direct (newline l6)]).
Proof.
  refine (C25_call_substitutes true ws_locate (ws_parse src6 []) None N (digits_val 0) N.ltb N.leb (bs "a") (Then (ln 0) Done) l6 (last toks6 (tk 0 0)) g1 0 []
    (t6 0) (bs "F") (t6 1) (Tok Comma at1) (t6 3) (tk 0 3) at1 [tk 0 5] [tk 0 8; tk 0 9; tk 0 10] (FromFile [bs "a"]) [[t6 2]]
    _ _ (first_runs _) _ _ _ _ _ _ _ _ _ _ _ _ _ _ _); try reflexivity; try discriminate.
  - now apply within_good.
  - now apply not_computed1.
  - now apply not_refused1.
  - intros [_ [_ H]]. now vm_compute in H.
  - constructor; [|constructor]. split; [discriminate|]. intros t [<-|[]]. exact I.
  - intros t [<-|[<-|[<-|[]]]]; try exact I. cbn. split; [now apply not_refused1|]. split; [now apply not_computed1|]. left. discriminate.
Qed.

(** ** C49 *)
Definition src7 := lines ["#include ""b.hpp"""; "b"]%string.
Definition inc7 := lines ["b"]%string.
Definition toks7 : list token := Eval vm_compute in match ws_parse src7 inc7 (bs "a") with Ok ts => ts | _ => [] end.
Definition toks7b : list token := Eval vm_compute in match ws_parse src7 inc7 (bs "b.hpp") with Ok ts => ts | _ => [] end.
Definition l7 (i : nat) := Eval vm_compute in nth i (split_lines toks7 []) no_line.
Definition l7b := Eval vm_compute in nth 0 (split_lines toks7b []) no_line.
Definition t7 (i : nat) := nth i (on (l7 0)) (tk 0 0).
Lemma b_hpp_runs P g : g (bs "b") = None -> exec_in P [bs "b.hpp"; bs "a"] g 0 (Then l7b Done) g 0 (map Direct (line_toks l7b)).
Proof.
  intros Hg. refine (E_text _ _ _ _ _ _ _ _ _ _ l7b _ 0 [Direct (hd (tk 0 0) (on l7b))] _ _ [] _ _ _); [text_line| |apply E_done].
  refine (X_word _ _ _ _ _ _ (bs "b") _ _ _ _ _ _ (X_nil _ _ _ _ _)); [reflexivity|now apply not_refused1|].
  left. intros [C|[C _]]; [revert C; now apply not_computed1|now apply C].
Qed.
Example C49_include_src7 : exists n0, forall n, (n0 <= n)%nat -> exists s,
  pp true src7 inc7 n = Ok (s, map Direct (line_toks l7b) ++ map Direct (line_toks (l7 1))).
Proof.
  refine (C49_include_in_place true ws_locate (ws_parse src7 inc7) None N (digits_val 0) N.ltb N.leb (bs "a") Done (l7 0) (t7 1) [t7 2] (t7 3) [t7 4; t7 5; t7 6] (t7 7) [] (bs "b.hpp") false
    (Then l7b Done) (last toks7b (tk 0 0)) (Then (l7 1) Done) (last toks7 (tk 0 0)) nothing 0 [] nothing 0 _ nothing 0 _
    _ _ (E_done _ _ _ _ _ _ _ _ _ _) _ _ _ _ _ _ _ _ (b_hpp_runs _ _ eq_refl) (b_runs _ _ _ eq_refl _ _)); try reflexivity; try each.
  - directive_here.
  - left. split; reflexivity.
  - discriminate.
  - discriminate.
  - discriminate.
Qed.
(** Two macros that stand for each other, and a file that includes itself. *)
Definition src9 := lines ["#define A B"; "#define B A"; "A"]%string.
Definition toks9 : list token := Eval vm_compute in match ws_parse src9 [] (bs "a") with Ok ts => ts | _ => [] end.
Definition l9 (i : nat) := Eval vm_compute in nth i (split_lines toks9 []) no_line.
Definition t9 (i j : nat) := nth j (on (l9 i)) (tk 0 0).
Example C50_mutual_src9 : forall n, pp true src9 [] n = NoFuel.
Proof.
  refine (C50_mutual_macros_diverge_refuted true ws_locate (ws_parse src9 []) None N (digits_val 0) N.ltb N.leb (bs "a") (l9 0) (l9 1) (t9 2 0) (bs "A") (bs "B") (t9 0 3) (t9 1 3)
    (t_pos (t9 1 5)) (t_pos (t9 0 5)) (t9 0 4) (t9 1 4) (t9 0 1) (t9 1 1) [t9 0 2] [t9 1 2] [newline (l9 2); last toks9 (tk 0 0)]
    _ _ _ _ _ _ _ _ _ _ _ _ _); try reflexivity; try each; try directive_here. discriminate.
Qed.
Definition src10 := lines ["#include ""b.hpp"""]%string.
Definition loop_locate (_ r : text) : option (text * bool) := Some (bs "a", false).
Definition toks10 : list token := Eval vm_compute in match ws_parse src10 [] (bs "a") with Ok ts => ts | _ => [] end.
Definition l10 := Eval vm_compute in nth 0 (split_lines toks10 []) no_line.
Definition t10 (j : nat) := nth j (on l10) (tk 0 0).
Example C50_self_include_src10 : forall n, preprocess true loop_locate (ws_parse src10 []) None N (digits_val 0) N.ltb N.leb n (bs "a") = NoFuel.
Proof.
  refine (C50_self_include_diverges_refuted true loop_locate (ws_parse src10 []) None N (digits_val 0) N.ltb N.leb (bs "a") l10 (t10 1) [t10 2] (t10 3) [t10 4; t10 5; t10 6] (t10 7) [] false
    [last toks10 (tk 0 0)] _ _ _ _ _ _ _); try reflexivity; try each; try directive_here; try discriminate. left. split; reflexivity.
Qed.

(** ** C26 *)
(** A flag set for the line is still set on later lines: the condition on the last but one line is refused without it. *)
Theorem C26_line_flag_persists_refuted :
  text_of (pp true (lines ["#pragma hemtt flag pe23_ignore_has_include line"; "a"; "#if __has_include(<x>)"; "b"; "#endif"; "c"]%string) [] 80) = Ok (lines ["a"; "c"]%string) /\
  pp true (lines ["a"; "#if __has_include(<x>)"; "b"; "#endif"; "c"]%string) [] 80 = Err PE23_has_include.
Proof. vm_compute. auto. Qed.
Example C26_line_suppression_ends : exists s p ts out,
  line (fns true ws_locate (ws_parse [] []) None N (digits_val 0) N.ltb N.leb 30) (init (bs "a"))
    (Prag true [(bs "pw3_padded_arg", SLine)] []) (on (l4 2) ++ [newline (l4 2); last toks4 (tk 0 0)]) [] = Ok (s, p, ts, out) /\ suppress p = [].
Proof. do 4 eexists. vm_compute. auto. Qed.

(** ** C48 *)
Definition src8 := lines ["class A { // the first"; "  x = 1; /* two"; "lines */ };"]%string.
Definition toks8 : list token := Eval vm_compute in match ws_parse src8 [] (bs "a") with Ok ts => ts | _ => [] end.
Example src8_tokens : parse_text ascii_letter ascii_other (bs "a") src8 = Ok toks8.
Proof. vm_compute. reflexivity. Qed.
Lemma occurs_dec p s : (fix go s := match s with [] => starts_with p [] | c :: r => starts_with p (c :: r) || go r end)%bool s = false -> ~ occurs p s.
Proof.
  intros H (a & b & ->). assert (forall l, starts_with p (p ++ l) = true) as St.
  { clear. induction p as [|c p IH]; intro l; [destruct l; reflexivity|]. cbn [app starts_with]. rewrite N.eqb_refl. apply IH. }
  induction a as [|c a IH]; cbn [app] in H.
  - destruct (p ++ b) as [|c r] eqn:E; rewrite <- E in H; specialize (St b); rewrite E in St, H; rewrite St in H; discriminate.
  - apply Bool.orb_false_iff in H. destruct H as [_ H]. auto.
Qed.
Example C48_src8 : exists n0, forall n, (n0 <= n)%nat -> exists s out, pp true src8 [] n = Ok (s, out) /\
  out_text out = lines ["class A { "; "  x = 1;  };"]%string.
Proof.
  refine (C48_plain_text_unchanged true ws_locate (ws_parse src8 []) None N (digits_val 0) N.ltb N.leb ascii_letter ascii_other (bs "a") src8 toks8 _ src8_tokens src8_tokens _ _ _).
  - reflexivity.
  - intro H. vm_compute in H. repeat destruct H as [H|H]; discriminate || contradiction.
  - apply occurs_dec. vm_compute. reflexivity.
  - apply occurs_dec. vm_compute. reflexivity.
Qed.
(** Backslashes that end no line, as in paths, are kept. *)
Definition src48 := lines ["x = ""\a3\data\""; // a path"; "y = '\';"]%string.
Definition toks48 : list token := Eval vm_compute in match ws_parse src48 [] (bs "a") with Ok ts => ts | _ => [] end.
Example C48_backslash : exists n0, forall n, (n0 <= n)%nat -> exists s out, pp true src48 [] n = Ok (s, out) /\
  out_text out = lines ["x = ""\a3\data\""; "; "y = '\';"]%string.
Proof.
  refine (C48_plain_text_unchanged true ws_locate (ws_parse src48 []) None N (digits_val 0) N.ltb N.leb ascii_letter ascii_other (bs "a") src48 toks48 _ ltac:(vm_compute; reflexivity) ltac:(vm_compute; reflexivity) _ _ _).
  - reflexivity.
  - intro H. vm_compute in H. repeat destruct H as [H|H]; discriminate || contradiction.
  - apply occurs_dec. vm_compute. reflexivity.
  - apply occurs_dec. vm_compute. reflexivity.
Qed.
(** A backslash at the end of a line takes the line break with it. *)
Example C48_continued : exists s out, pp true (lines ["x = \"; "1;"]%string) [] 60 = Ok (s, out) /\ out_text out = lines ["x = 1;"]%string.
Proof. do 2 eexists. vm_compute. auto. Qed.

(** ** C46, C47 *)
Example C46_src8 : toks_text toks8 = lines ["class A { "; "  x = 1;  };"]%string.
Proof. exact (C46_tokens_keep_text ascii_letter ascii_other (bs "a") src8 toks8 (fun _ _ => eq_refl) src8_tokens). Qed.
(** A line comment with an opening of a block comment in it reaches to the line where that is closed. *)
Theorem C46_comment_in_comment_refuted :
  uncommented (lines ["x // a /* b"; "lost */ also"; "y"]%string) = lines ["x "; "y"]%string.
Proof. vm_compute. reflexivity. Qed.
(** Line and column of the first token with the text [w]. *)
Definition place (src w : text) : option (N * N) :=
  match parse_text ascii_letter ascii_other (bs "a") src with
  | Ok ts => match List.find (fun t => text_eqb (tok_text t) w) ts with Some t => Some (lc_line (p_start (t_pos t)), lc_col (p_start (t_pos t))) | None => None end
  | _ => None
  end.
Example C47_plain : place (lines ["a = 1;"; "bc = 2;"]%string) (bs "2") = Some (2, 5).
Proof. vm_compute. reflexivity. Qed.
(** A block comment inside a string does not count its line breaks: what follows it is one line too high. *)
Theorem C47_lines_in_string_comment_refuted : place (bs """/*" ++ [10] ++ bs "*/"" x") (bs "x") = Some (1, 3).
Proof. vm_compute. reflexivity. Qed.
(** Columns after a quote of the other kind in a string, and after a block comment, are too small. *)
Theorem C47_columns_refuted : place (bs """'a'"" x") (bs "x") = Some (1, 4) /\ place (bs "/* c */ x") (bs "x") = Some (1, 1).
Proof. vm_compute. auto. Qed.

Print Assumptions C24_nested_second_else_refuted.
Print Assumptions C24_stray_else_release_refuted.
Print Assumptions C26_line_flag_persists_refuted.
Print Assumptions C46_comment_in_comment_refuted.
Print Assumptions C47_lines_in_string_comment_refuted.
Print Assumptions C47_columns_refuted.
