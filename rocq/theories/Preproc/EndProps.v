(** C50: preprocessing ends when macros and includes descend; a check of the hypotheses for given files. *)
From Coq Require Import String.
From Verif Require Import Base.Tactics Base.Bytes Base.Ascii Base.Text Preproc.Model Preproc.LexModel Preproc.EndSpec Preproc.Ends.
Local Open Scope list_scope.

(** Files whose macros and includes descend: the processor comes to an end, with a result, an error or a panic [r], and
    more steps do not change it. *)
Theorem C50_descending_files_end checked locate parse project F parse_f64 flt fle rank depth path :
  (forall f, parse f <> NoFuel) -> macros_descend parse rank -> includes_descend locate parse depth ->
  exists n r, r <> NoFuel /\ forall m, n <= m -> preprocess checked locate parse project F parse_f64 flt fle m path = r.
Proof. intros P M I. exact (preprocess_ends checked locate parse project F parse_f64 flt fle rank M P depth I path). Qed.
Print Assumptions C50_descending_files_end.

(** ** Checking the hypotheses *)
Fixpoint longest (go_on : bool) (l : list token) : list token :=
  match l with
  | [] => []
  | t :: r => if is_newline (t_sym t) then (if go_on then t :: longest false r else [])
              else t :: longest (is_escape (t_sym t) || is_eoi (t_sym t)) r
  end.
Definition is_glue (t : token) : bool := is_join (t_sym t) || is_escape (t_sym t) || is_eoi (t_sym t).
Fixpoint after_glue (l : list token) : bool :=
  match l with
  | [] => true
  | t :: r => negb (among (tok_text t) directive_names) && (if is_glue t then after_glue r else true)
  end.
Fixpoint quiet (l : list token) : bool :=
  match l with [] => true | t :: r => (if sym_dec (t_sym t) Hash then after_glue r else true) && quiet r end.
Fixpoint check_macros (rank : text -> nat) (l : list token) : bool :=
  match l with
  | [] => true
  | h :: r =>
      (if sym_dec (t_sym h) Hash then
         match r with
         | c :: ts =>
             if sym_dec (t_sym c) (Word (bs "define")) then
               match skip_ws ts with
               | i :: rest =>
                   match t_sym i with
                   | Word name => forallb (fun w => Nat.ltb (rank w) (rank name)) (bare false (longest false rest)) && quiet (longest false rest)
                   | _ => true
                   end
               | [] => true
               end
             else true
         | [] => true
         end
       else true) && check_macros rank r
  end.

Lemma longest_takes l : forall g body post, l = body ++ post ->
  (forall a nl b, body = a ++ nl :: b -> t_sym nl = Newline -> a = [] /\ g = true \/ exists a' e, a = a' ++ [e] /\ (t_sym e = Escape \/ t_sym e = Eoi)) ->
  exists more, longest g l = body ++ more.
Proof.
  induction l as [|t r IH]; intros g body post E H.
  - destruct body; [exists []; reflexivity|discriminate].
  - destruct body as [|y body]; [now exists (longest g (t :: r))|]. cbn [app] in E. injection E as <- E. cbn [longest].
    destruct (is_newline (t_sym t)) eqn:N.
    + assert (t_sym t = Newline) as Nt by (destruct (t_sym t); try discriminate; auto).
      destruct (H [] t body eq_refl Nt) as [[_ ->]|(a' & e & X & _)]; [|destruct a'; discriminate].
      destruct (IH false body post E) as [more ->]; [|now exists more].
      intros a nl b Eb Hn. right. destruct (H (t :: a) nl b) as [[X _]|(a' & e & X & He)]; [now rewrite Eb|exact Hn|discriminate|].
      destruct a' as [|z a']; cbn in X; injection X as X1 X2; subst; [rewrite Nt in He; destruct He; discriminate|]. eauto.
    + destruct (IH (is_escape (t_sym t) || is_eoi (t_sym t)) body post E) as [more ->]; [|now exists more].
      intros a nl b Eb Hn. destruct (H (t :: a) nl b) as [[X _]|(a' & e & X & He)]; [now rewrite Eb|exact Hn|discriminate|].
      destruct a' as [|z a']; cbn in X; injection X as X1 X2; subst; [|right; eauto]. left. split; auto. destruct He as [-> | ->]; reflexivity.
Qed.
Lemma bare_app a b : forall q w, In w (bare q a) -> In w (bare q (a ++ b)).
Proof.
  induction a as [|t a IH]; intros q w H; [destruct H|]. cbn [app bare] in *. destruct (t_sym t); auto. destruct q; auto. destruct H; [left|right]; auto.
Qed.
Lemma quiet_sound l : quiet l = true -> no_directive l.
Proof.
  intros Q a h mid c b -> Hh G. assert (after_glue (mid ++ c :: b) = true) as A.
  { induction a as [|x a IH]; cbn [app quiet] in Q; apply Bool.andb_true_iff in Q; destruct Q as [Q1 Q2]; auto. rewrite Hh in Q1. destruct (sym_dec Hash Hash); [auto|congruence]. }
  assert (among (tok_text c) directive_names = false) as N.
  { clear Q. revert A. induction G as [|g mid Hg G IH]; cbn [app after_glue]; intro A; apply Bool.andb_true_iff in A; destruct A as [A1 A2].
    - now apply Bool.negb_true_iff.
    - apply IH. replace (is_glue g) with true in A2; auto. unfold is_glue. destruct Hg as [-> |[-> | ->]]; reflexivity. }
  intro I. assert (among (tok_text c) directive_names = true) as Y; [|congruence].
  unfold among. apply existsb_exists. exists (tok_text c). split; auto. unfold text_eqb. destruct (text_dec _ _); auto.
Qed.
Lemma no_directive_prefix a b : no_directive (a ++ b) -> no_directive a.
Proof. intros H x h mid c y -> Hh G. eapply (H x h mid c (y ++ b)); auto. rewrite <- app_assoc. cbn [app]. rewrite <- app_assoc. reflexivity. Qed.
Lemma skip_blank ws i r : (forall t, In t ws -> is_space (t_sym t) = true) -> is_space (t_sym i) = false -> skip_ws (ws ++ i :: r) = i :: r.
Proof.
  induction ws as [|t ws IH]; intros H Hi; cbn [app skip_ws]; [now rewrite Hi|]. rewrite (H t (or_introl eq_refl)). apply IH; auto. intros x Hx. apply H. now right.
Qed.
Lemma check_macros_sound rank toks name body : check_macros rank toks = true -> defined_as toks name body ->
  (forall w, In w (bare false body) -> rank w < rank name) /\ no_directive body.
Proof.
  intros C (pre & h & c & ws & i & post & -> & Hh & Hc & Hws & Hi & O).
  induction pre as [|x pre IH]; cbn [app check_macros] in C; apply Bool.andb_true_iff in C; destruct C as [C C']; [|auto]. clear C'.
  rewrite Hh, Hc in C. destruct (sym_dec Hash Hash); [|congruence]. destruct (sym_dec _ _); [|congruence].
  rewrite skip_blank in C; [|auto|now rewrite Hi]. rewrite Hi in C. apply Bool.andb_true_iff in C. destruct C as [C1 C2].
  destruct (longest_takes (body ++ post) false body post eq_refl) as [more Em]; [intros a nl b E N; right; eapply O; eauto|]. rewrite Em in C1, C2. split.
  - intros w Hw. rewrite forallb_forall in C1. apply Nat.ltb_lt, C1, bare_app, Hw.
  - eapply no_directive_prefix, quiet_sound, C2.
Qed.

(** ** A case: two files, macros with and without parameters, a macro named in a string of its own body, a line that goes on. *)
Definition lines (l : list string) : text := flat_map (fun s => bs s ++ [10%N]) l.
Definition main_text : text := lines
  ["#include ""b.hpp"""; "#define SUM(x,y) PLUS(x,y) \"; "  + B"; "#define NAME ""NAME"""; "#define STR(v) #v"; "SUM(B,1) NAME STR(B) __FILE_NAME__"]%string.
Definition b_text : text := lines ["#define B 1"; "#define PLUS(x,y) x + y"]%string.
Definition main_path : text := bs "main.cpp".
Definition b_path : text := bs "b.hpp".
Definition demo_parse (f : text) : run (list token) :=
  if text_dec f main_path then parse_text ascii_letter ascii_other main_path main_text
  else if text_dec f b_path then parse_text ascii_letter ascii_other b_path b_text
  else Err PE24_parse.
Definition demo_locate (cur req : text) : option (text * bool) := if text_dec req b_path then if text_dec cur main_path then Some (b_path, false) else None else None.
Definition demo_rank (w : text) : nat :=
  if text_dec w (bs "SUM") then 3 else if among w [bs "PLUS"; bs "NAME"; bs "STR"] then 2
  else if among w [bs "B"; bs "__FILE_NAME__"; bs "__FILE_SHORT__"] then 1 else 0.
Definition demo_depth (f : text) : nat := if text_dec f main_path then 1 else 0.
Lemma demo_cases f toks : demo_parse f = Ok toks ->
  f = main_path /\ parse_text ascii_letter ascii_other main_path main_text = Ok toks \/ f = b_path /\ parse_text ascii_letter ascii_other b_path b_text = Ok toks.
Proof. unfold demo_parse. destruct (text_dec f main_path); [auto|]. destruct (text_dec f b_path); [auto|discriminate]. Qed.
Definition passes (r : run (list token)) (path : text) : bool :=
  match r with
  | Ok toks => check_macros demo_rank toks && forallb (fun t => text_eqb (p_path (t_pos t)) path) toks
  | _ => false
  end.
Lemma demo_macros : macros_descend demo_parse demo_rank.
Proof.
  assert (passes (parse_text ascii_letter ascii_other main_path main_text) main_path = true) as A by (vm_compute; reflexivity).
  assert (passes (parse_text ascii_letter ascii_other b_path b_text) b_path = true) as B by (vm_compute; reflexivity).
  assert (forall f toks, demo_parse f = Ok toks -> (f = main_path \/ f = b_path) /\ check_macros demo_rank toks = true /\ forall t, In t toks -> p_path (t_pos t) = f) as H.
  { intros f toks E. destruct (demo_cases f toks E) as [[-> P]|[-> P]]; [rewrite P in A; rename A into X|rewrite P in B; rename B into X]; cbn [passes] in X;
      apply Bool.andb_true_iff in X; destruct X as [X1 X2]; (split; [auto|]); (split; [exact X1|]); intros t Ht; rewrite forallb_forall in X2; specialize (X2 t Ht);
      unfold text_eqb in X2; destruct (text_dec _ _) as [Y|]; try discriminate; exact Y. }
  constructor.
  - intros f toks name body E D. destruct (H f toks E) as (_ & C & _). eapply check_macros_sound; eauto.
  - intros f toks t E Ht. destruct (H f toks E) as (F & _ & P). rewrite (P t Ht). destruct F as [-> | ->]; vm_compute; auto.
Qed.
Lemma demo_includes : includes_descend demo_locate demo_parse demo_depth.
Proof.
  intros f toks req found other _ _ L. unfold demo_locate in L. destruct (text_dec req b_path); [|discriminate]. destruct (text_dec f main_path) as [->|]; [|discriminate].
  injection L as <- <-. vm_compute. auto.
Qed.
Example C50_demo_meets_hypotheses :
  (forall f, demo_parse f <> NoFuel) /\ macros_descend demo_parse demo_rank /\ includes_descend demo_locate demo_parse demo_depth.
Proof.
  split; [|split; [exact demo_macros|exact demo_includes]]. intros f E. unfold demo_parse in E.
  destruct (text_dec f main_path); [vm_compute in E; discriminate|]. destruct (text_dec f b_path); [vm_compute in E; discriminate|discriminate].
Qed.
