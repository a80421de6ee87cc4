(** C89. *)
From Coq Require Import String.
From Verif Require Import Base.Tactics Base.Bytes Base.Ascii Base.Sort Base.Text Stringtable.Model Stringtable.Props Stringtable.FileModel Stringtable.FileSpec Stringtable.FileProofs.
Local Open Scope N_scope.
Local Open Scope list_scope.

Lemma from_reader_eq parse its p : lays_out its p -> Forall (fun i => comments (fst i)) its -> one_lines p -> reads_as parse its p ->
  from_reader parse (file_of its) = Some (p, comments_of (file_lines its)).
Proof. intros L C O R. unfold from_reader. rewrite (file_lines_well its p L C O). unfold reads_as in R. now rewrite R. Qed.
Lemma unchanged_items (its its' : list item) : keyed snd None its' = keyed snd None its -> its' = its.
Proof. intros H. rewrite <- (keyed_snd snd its' None), <- (keyed_snd snd its None). now f_equal. Qed.

(** A stringtable in order, its comments laid out like the lines below them, is written as it was read. *)
Theorem C89_unchanged : forall parse only_lang its p,
  one_lines p -> lays_out its p -> Forall (fun i => comments (fst i)) its -> anchored its -> neat its -> reads_as parse its p ->
  only_lang = true \/ sort p = p ->
  rewritten parse only_lang (file_of its) = Some (file_of its).
Proof.
  intros parse only_lang its p O L C A Ne R S. unfold rewritten. rewrite (from_reader_eq parse its p L C O R). cbn [option_map]. f_equal.
  assert (E : (if only_lang then p else sort p) = p) by (destruct S as [->|S]; [reflexivity|rewrite S; now destruct only_lang]). rewrite E.
  destruct (written_file its p p L C A O (Permutation_refl _)) as (its' & W & _ & _ & _ & _ & _ & K). rewrite W. f_equal. apply unchanged_items.
  rewrite (K eq_refl). now apply (again_neat its p).
Qed.

(** Sorting: every comment is in the new file once, right above the line it stood above, in the same key. *)
Theorem C89_comments_stay : forall parse its p,
  one_lines p -> no_empty_key p -> lays_out its p -> Forall (fun i => comments (fst i)) its -> anchored its -> reads_as parse its p ->
  exists its', rewritten parse false (file_of its) = Some (file_of its') /\ lays_out its' (sort p) /\ neat its' /\
    Permutation (map above (keyed snd None its')) (map above (keyed snd None its)) /\
    (neat its -> Permutation (keyed snd None its') (keyed snd None its)).
Proof.
  intros parse its p O Z L C A R. unfold rewritten. rewrite (from_reader_eq parse its p L C O R). cbn [option_map].
  destruct (written_file its p (sort p) L C A (one_lines_sort p O) (project_perm p Z)) as (its' & W & L' & _ & _ & Ne & P & _).
  exists its'. rewrite W. split; [reflexivity|]. split; [exact L'|]. split; [exact Ne|]. split.
  - rewrite <- (again_above its p L C). now apply Permutation_map.
  - intros N1. now rewrite (again_neat its p L C N1) in P.
Qed.

(** Keeping the order: also then nothing moves, only the comments are indented. *)
Theorem C89_only_languages : forall parse its p,
  one_lines p -> lays_out its p -> Forall (fun i => comments (fst i)) its -> anchored its -> reads_as parse its p ->
  exists its', rewritten parse true (file_of its) = Some (file_of its') /\ lays_out its' p /\ neat its' /\ map above (keyed snd None its') = map above (keyed snd None its).
Proof.
  intros parse its p O L C A R. unfold rewritten. rewrite (from_reader_eq parse its p L C O R). cbn [option_map].
  destruct (written_file its p p L C A O (Permutation_refl _)) as (its' & W & L' & _ & _ & Ne & _ & K).
  exists its'. rewrite W. split; [reflexivity|]. split; [exact L'|]. split; [exact Ne|]. rewrite (K eq_refl). apply (again_above its p L C).
Qed.

Lemma not_sorted_in parse only_lang files n : In n (not_sorted parse only_lang files) <->
  exists f f', In (n, f) files /\ rewritten parse only_lang f = Some f' /\ trim f' <> trim f.
Proof.
  unfold not_sorted. rewrite in_flat_map. split.
  - intros ([n' f] & I & H). destruct (rewritten parse only_lang f) as [f'|] eqn:E; [|contradiction]. destruct (eqb_bytes (trim f') (trim f)) eqn:B; [contradiction|].
    destruct H as [->|[]]. apply eqb_bytes_false in B. eauto.
  - intros (f & f' & I & E & B). exists (n, f). split; [exact I|]. rewrite E. apply eqb_bytes_false in B. rewrite B. now left.
Qed.
(** The lint names a file exactly if the command would change more of it than the blanks around it. *)
Theorem C89_warns : forall parse only_lang files n,
  (In (OnPath n) (sorted_lint parse only_lang files) \/ exists ns, In (OnPaths ns) (sorted_lint parse only_lang files) /\ In n ns) <->
  exists f f', In (n, f) files /\ rewritten parse only_lang f = Some f' /\ trim f' <> trim f.
Proof.
  intros parse only_lang files n. rewrite <- not_sorted_in. unfold sorted_lint. destruct (length _ <=? 3)%nat.
  - split; [|intros I; left; now apply in_map].
    intros [H|(ns & H & _)]; apply in_map_iff in H as (x & E & H); [now injection E as ->|discriminate].
  - split; [|intros I; right; eexists; split; [now left|exact I]]. intros [[H|[]]|(ns & [H|[]] & I)]; [discriminate|]. now injection H as ->.
Qed.
(** After the command the files are left alone by a second run, and the lint has nothing to say, if the XML library reads what it
    wrote. *)
Theorem C89_sorted_once : forall parse its p,
  one_lines p -> no_empty_key p -> lays_out its p -> Forall (fun i => comments (fst i)) its -> anchored its -> reads_as parse its p ->
  exists its', rewritten parse false (file_of its) = Some (file_of its') /\
    (reads_as parse its' (sort p) -> rewritten parse false (file_of its') = Some (file_of its') /\ forall n, sorted_lint parse false [(n, file_of its')] = []).
Proof.
  intros parse its p O Z L C A R. unfold rewritten at 1. rewrite (from_reader_eq parse its p L C O R). cbn [option_map].
  destruct (written_file its p (sort p) L C A (one_lines_sort p O) (project_perm p Z)) as (its' & W & L' & C' & A' & Ne & _ & _).
  exists its'. rewrite W. split; [reflexivity|]. intros R'.
  assert (E : rewritten parse false (file_of its') = Some (file_of its')) by (apply (C89_unchanged parse false its' (sort p)); auto using one_lines_sort; right; apply C41_idempotent).
  split; [exact E|]. intros n. unfold sorted_lint, not_sorted. cbn [flat_map]. rewrite E, eqb_bytes_refl. reflexivity.
Qed.
(** The command: up to the first file that cannot be read every file is rewritten, the others are as they were. *)
Theorem C89_command : forall parse only_lang a b,
  Forall (fun f => rewritten parse only_lang (snd f) <> None) a -> (forall f r, b = f :: r -> rewritten parse only_lang (snd f) = None) ->
  exists a', sort_files parse only_lang (a ++ b) = a' ++ b /\ Forall2 (fun f f' => fst f' = fst f /\ rewritten parse only_lang (snd f) = Some (snd f')) a a'.
Proof.
  intros parse only_lang a b F B. induction F as [|[n f] a H _ (a' & E & F2)].
  - exists []. split; [|constructor]. cbn [app]. destruct b as [|[n f] r]; [reflexivity|]. cbn [sort_files]. specialize (B _ _ eq_refl). cbn [snd] in B. now rewrite B.
  - cbn [snd] in H. destruct (rewritten parse only_lang f) as [f'|] eqn:R; [|contradiction]. exists ((n, f') :: a'). cbn [app sort_files]. rewrite R, E. split; [reflexivity|]. constructor; [now split|exact F2].
Qed.

(** ** The languages *)
Lemma translations_says k t s : In (t, s) (translations k) <-> says k t s.
Proof.
  unfold translations. rewrite in_flat_map. split.
  - intros ((n & o) & I & H). repeat (destruct I as [E|I]; [pose proof (f_equal fst E) as E1; pose proof (f_equal snd E) as E2; cbn [fst snd] in E1, E2; clear E; subst n;
      destruct o as [v|]; [|contradiction]; destruct H as [H|[]]; pose proof (f_equal fst H) as H1; pose proof (f_equal snd H) as H2; cbn [fst snd] in H1, H2; subst t v; now constructor|]). destruct I.
  - intros H. destruct H as [s E | s E | s E | s E | s E | s E | s E | s E | s E | s E | s E | s E | s E | s E | s E | s E | s E | s E | s E | s E | s E | s E | s E | s E].
    + exists (bs "Original", original k). split; [left; reflexivity|]. rewrite E. now left.
    + exists (bs "English", english k). split; [do 1 right; left; reflexivity|]. rewrite E. now left.
    + exists (bs "Czech", czech k). split; [do 2 right; left; reflexivity|]. rewrite E. now left.
    + exists (bs "French", french k). split; [do 3 right; left; reflexivity|]. rewrite E. now left.
    + exists (bs "Spanish", spanish k). split; [do 4 right; left; reflexivity|]. rewrite E. now left.
    + exists (bs "Italian", italian k). split; [do 5 right; left; reflexivity|]. rewrite E. now left.
    + exists (bs "Polish", polish k). split; [do 6 right; left; reflexivity|]. rewrite E. now left.
    + exists (bs "Portuguese", portuguese k). split; [do 7 right; left; reflexivity|]. rewrite E. now left.
    + exists (bs "Russian", russian k). split; [do 8 right; left; reflexivity|]. rewrite E. now left.
    + exists (bs "German", german k). split; [do 9 right; left; reflexivity|]. rewrite E. now left.
    + exists (bs "Korean", korean k). split; [do 10 right; left; reflexivity|]. rewrite E. now left.
    + exists (bs "Japanese", japanese k). split; [do 11 right; left; reflexivity|]. rewrite E. now left.
    + exists (bs "Chinese", chinese k). split; [do 12 right; left; reflexivity|]. rewrite E. now left.
    + exists (bs "Chinesesimp", chinesesimp k). split; [do 13 right; left; reflexivity|]. rewrite E. now left.
    + exists (bs "Turkish", turkish k). split; [do 14 right; left; reflexivity|]. rewrite E. now left.
    + exists (bs "Swedish", swedish k). split; [do 15 right; left; reflexivity|]. rewrite E. now left.
    + exists (bs "Slovak", slovak k). split; [do 16 right; left; reflexivity|]. rewrite E. now left.
    + exists (bs "Serbocroatian", serbocroatian k). split; [do 17 right; left; reflexivity|]. rewrite E. now left.
    + exists (bs "Norwegian", norwegian k). split; [do 18 right; left; reflexivity|]. rewrite E. now left.
    + exists (bs "Icelandic", icelandic k). split; [do 19 right; left; reflexivity|]. rewrite E. now left.
    + exists (bs "Hungarian", hungarian k). split; [do 20 right; left; reflexivity|]. rewrite E. now left.
    + exists (bs "Greek", greek k). split; [do 21 right; left; reflexivity|]. rewrite E. now left.
    + exists (bs "Finnish", finnish k). split; [do 22 right; left; reflexivity|]. rewrite E. now left.
    + exists (bs "Dutch", dutch k). split; [do 23 right; left; reflexivity|]. rewrite E. now left.
Qed.
Lemma nodup_translations {A} (l : list (bytes * option A)) : NoDup (map fst l) ->
  NoDup (map fst (flat_map (fun '(t, o) => match o with Some s => [(t, s)] | None => [] end) l)).
Proof.
  induction l as [|[t o] l IH]; intros D; [constructor|]. inversion D as [|? ? X Y]; subst. cbn [flat_map]. rewrite map_app. destruct o as [a|]; [|now apply IH].
  cbn [map app fst]. constructor; [|now apply IH]. intros I. apply X. apply in_map_iff in I as ((t' & s) & <- & I). apply in_flat_map in I as ((t2 & o2) & J & K).
  destruct o2; [|contradiction]. destruct K as [K|[]]. apply in_map_iff. exists (t2, Some a0). split; [|exact J]. exact (f_equal fst K).
Qed.
Lemma nodup_tags : NoDup tags.
Proof.
  assert (H : forall l, (fix go l := match l with [] => true | x :: r => negb (existsb (eqb_bytes x) r) && go r end) l = true -> NoDup l).
  { induction l as [|x r IH]; intros H; [constructor|]. apply andb_true_iff in H as [H1 H2]. constructor; [|now apply IH]. intros I. apply negb_true_iff in H1.
    enough (existsb (eqb_bytes x) r = true) by congruence. apply existsb_exists. exists x. split; [exact I|apply eqb_bytes_refl]. }
  apply H. vm_compute. reflexivity.
Qed.
Lemma nodup_says k : NoDup (map fst (translations k)).
Proof. unfold translations. apply nodup_translations. exact nodup_tags. Qed.
Lemma inside_element d tag a v inner : inner <> [] -> exists x y, element d tag a v inner = x ++ inner ++ y.
Proof. intros H. rewrite element_eq. destruct inner; [contradiction|]. eexists [_], [_]. reflexivity. Qed.
Lemma inside_flat {A} (f : A -> list bytes) l a : In a l -> exists x y, flat_map f l = x ++ f a ++ y.
Proof. intros I. apply in_split in I as (u & v & ->). exists (flat_map f u), (flat_map f v). rewrite flat_map_app. reflexivity. Qed.
Lemma element_ne d tag a v inner : element d tag a v inner <> [].
Proof. rewrite element_eq. destruct inner; discriminate. Qed.
Lemma key_in_package k : forall p, holds k p -> forall d tag, exists n x y, package_lines d tag p = x ++ key_lines n k ++ y.
Proof.
  induction 1 as [n ks cs I|n ks cs c I _ IH]; intros d tag; cbn [package_lines].
  - destruct (inside_flat (key_lines (S d)) ks k I) as (x & y & E). exists (S d).
    destruct (inside_element d tag (bs "name") n (flat_map (key_lines (S d)) ks ++ flat_map (package_lines (S d) (bs "Container")) cs)) as (u & v & Q).
    { intros Z. apply app_eq_nil in Z as [Z _]. rewrite E in Z. apply app_eq_nil in Z as [_ Z]. apply app_eq_nil in Z as [Z _]. now apply element_ne in Z. }
    rewrite Q, E. exists (u ++ x), (y ++ flat_map (package_lines (S d) (bs "Container")) cs ++ v). rewrite <- !app_assoc. reflexivity.
  - destruct (inside_flat (package_lines (S d) (bs "Container")) cs c I) as (x & y & E). destruct (IH (S d) (bs "Container")) as (m & x' & y' & E').
    exists m. destruct (inside_element d tag (bs "name") n (flat_map (key_lines (S d)) ks ++ flat_map (package_lines (S d) (bs "Container")) cs)) as (u & v & Q).
    { intros Z. apply app_eq_nil in Z as [_ Z]. rewrite E, E' in Z. apply app_eq_nil in Z as [_ Z]. apply app_eq_nil in Z as [Z _]. apply app_eq_nil in Z as [_ Z]. apply app_eq_nil in Z as [Z _]. now apply element_ne in Z. }
    rewrite Q, E, E'. exists (u ++ flat_map (key_lines (S d)) ks ++ x ++ x'), (y' ++ y ++ v). rewrite <- !app_assoc. reflexivity.
Qed.
(** In every layout a key that says something has, between its first line and its last, one line for each language it says
    something in and no other, under the name of that language. *)
Theorem C89_languages : forall its p g k, lays_out its p -> In g (packages p) -> holds k g -> (exists t s, says k t s) ->
  exists n said before after,
    map snd its = before ++ (repeat 32 n ++ bs "<Key ID=" ++ [34] ++ attribute_escape (id k) ++ [34; 62]) ::
      map (fun '(t, s) => repeat 32 (4 + n) ++ bs "<" ++ t ++ bs ">" ++ partial_escape (minimal_escape s) ++ bs "</" ++ t ++ bs ">") said ++
      (repeat 32 n ++ bs "</Key>") :: after /\
    (forall t s, In (t, s) said <-> says k t s) /\ NoDup (map fst said).
Proof.
  intros its p g k L I H (t0 & s0 & S). unfold lays_out in L. rewrite L. clear L.
  destruct (key_in_package k g H 1%nat (bs "Package")) as (n & x & y & E). destruct (inside_flat (package_lines 1 (bs "Package")) (packages p) g I) as (u & v & Q).
  exists (4 * n)%nat, (translations k).
  destruct (inside_element 0 (bs "Project") (bs "name") (p_name p) (flat_map (package_lines 1 (bs "Package")) (packages p))) as (u' & v' & Q').
  { intros Z. rewrite Q, E in Z. apply app_eq_nil in Z as [_ Z]. apply app_eq_nil in Z as [Z _]. apply app_eq_nil in Z as [_ Z]. apply app_eq_nil in Z as [Z _]. now apply element_ne in Z. }
  exists (u' ++ u ++ x), (y ++ v ++ v'). split; [|split; [apply translations_says|apply nodup_says]].
  unfold project_lines. rewrite Q', Q, E. unfold key_lines. rewrite element_eq. apply translations_says in S. destruct (translations k) as [|a r] eqn:T; [contradiction|].
  assert (M : map (translation_line (Datatypes.S n)) (a :: r) = map (fun '(t, s) => repeat 32 (4 + 4 * n) ++ bs "<" ++ t ++ bs ">" ++ partial_escape (minimal_escape s) ++ bs "</" ++ t ++ bs ">") (a :: r)).
  { apply map_ext. intros [t s]. unfold translation_line, indent. cbn [fst snd]. f_equal. f_equal. lia. }
  rewrite M. cbn [map]. rewrite <- !app_assoc. do 3 f_equal. cbn [app]. f_equal. f_equal. rewrite <- !app_assoc. reflexivity.
Qed.

(** ** Where comments are lost or multiplied *)
Definition no_text (i : bytes) (e : option bytes) : key :=
  Key i None e None None None None None None None None None None None None None None None None None None None None None None.
Definition how_often (c file : bytes) : nat := length (filter (fun l => eqb_bytes (trim l) c) (lines file)).
Definition q (s : bytes) : bytes := map (fun c => if c =? 39 then 34 else c) s.
Definition text_file (ls : list bytes) : bytes := flat_map ended (header :: map q ls).
Definition two : project := Project (bs "P") [Package (bs "A") [no_text (bs "a") (Some (bs "x"))] []; Package (bs "B") [no_text (bs "b") (Some (bs "x & y"))] []].
Definition start_of_two : list bytes := [bs "<Project name='P'>"; bs "    <Package name='A'>"; bs "        <Key ID='a'>"; bs "            <English>x</English>"; bs "        </Key>"; bs "    </Package>"].
Definition end_of_two : list bytes := [bs "    <Package name='B'>"; bs "        <Key ID='b'>"; bs "            <English>x & y</English>"; bs "        </Key>"; bs "    </Package>"; bs "</Project>"].

(** A blank line after a comment: it is copied above every line outside the keys. *)
Theorem C89_blank_line_refuted : exists f f', f = text_file (start_of_two ++ [bs "    <!-- c -->"; []] ++ end_of_two) /\ how_often (bs "<!-- c -->") f = 1%nat /\
  rewritten (fun _ => Some two) false f = Some f' /\ how_often (bs "<!-- c -->") f' = 8%nat.
Proof. eexists _, _. split; [reflexivity|]. split; [vm_compute; reflexivity|]. split; vm_compute; reflexivity. Qed.
(** A comment above a line with an ampersand is dropped. *)
Theorem C89_ampersand_refuted : exists f f', f = text_file (start_of_two ++ firstn 2 end_of_two ++ [bs "            <!-- c -->"] ++ skipn 2 end_of_two) /\ how_often (bs "<!-- c -->") f = 1%nat /\
  rewritten (fun _ => Some two) false f = Some f' /\ how_often (bs "<!-- c -->") f' = 0%nat.
Proof. eexists _, _. split; [reflexivity|]. split; [vm_compute; reflexivity|]. split; vm_compute; reflexivity. Qed.
(** A comment below the last line is dropped. *)
Theorem C89_last_refuted : exists f f', f = text_file (start_of_two ++ end_of_two ++ [bs "<!-- c -->"]) /\ how_often (bs "<!-- c -->") f = 1%nat /\
  rewritten (fun _ => Some two) false f = Some f' /\ how_often (bs "<!-- c -->") f' = 0%nat.
Proof. eexists _, _. split; [reflexivity|]. split; [vm_compute; reflexivity|]. split; vm_compute; reflexivity. Qed.
(** A comment at the end of one package is copied to the end of all. *)
Theorem C89_package_end_refuted : exists f f', f = text_file (firstn 5 start_of_two ++ [bs "        <!-- c -->"] ++ skipn 5 start_of_two ++ end_of_two) /\ how_often (bs "<!-- c -->") f = 1%nat /\
  rewritten (fun _ => Some two) false f = Some f' /\ how_often (bs "<!-- c -->") f' = 2%nat.
Proof. eexists _, _. split; [reflexivity|]. split; [vm_compute; reflexivity|]. split; vm_compute; reflexivity. Qed.
(** A comment that something follows on its line takes what comes after it, up to the next comment, for a part of the comment: the
    key is written twice. *)
Theorem C89_beside_refuted : exists f f', f = text_file (firstn 2 start_of_two ++ [bs "        <!-- c --> <Key ID='a'>"] ++ skipn 3 start_of_two ++ [bs "    <!-- d -->"] ++ end_of_two) /\
  how_often (bs "<English>x</English>") f = 1%nat /\ rewritten (fun _ => Some two) false f = Some f' /\ how_often (bs "<English>x</English>") f' = 2%nat.
Proof. eexists _, _. split; [reflexivity|]. split; [vm_compute; reflexivity|]. split; vm_compute; reflexivity. Qed.
(** A key without translations is taken to go on: what is said above the next one is lost if sorting moves it. *)
Theorem C89_empty_key_refuted : exists p f f', p = Project (bs "P") [Package (bs "A") [no_text (bs "z") None; no_text (bs "a") (Some (bs "x"))] []] /\
  f = text_file [bs "<Project name='P'>"; bs "    <Package name='A'>"; bs "        <Key ID='z'></Key>"; bs "        <!-- c -->"; bs "        <Key ID='a'>"; bs "            <English>x</English>"; bs "        </Key>"; bs "    </Package>"; bs "</Project>"] /\
  rewritten (fun _ => Some p) true f = Some f /\ rewritten (fun _ => Some p) false f = Some f' /\ how_often (bs "<!-- c -->") f' = 0%nat.
Proof. eexists _, _, _. split; [reflexivity|]. split; [reflexivity|]. split; [vm_compute; reflexivity|]. split; vm_compute; reflexivity. Qed.

(** ** The hypotheses are met: a file that is not in order, with comments of all kinds, the first one not indented. *)
Definition mixed : project := Project (bs "P") [Package (bs "Z & Y") [no_text (bs "b") (Some (bs "x & y")); no_text (bs "a") (Some (bs "x"))] []; Package (bs "A") [no_text (bs "c") (Some (bs "x"))] []].
Definition mixed_items : list item :=
  combine [[bs "      <!-- top"; bs "   of the file -->  "]; []; [bs "        <!-- one -->"; bs "<!-- two -->"]; []; []; []; [bs "            <!-- same -->"]; [bs "            <!-- end -->"]; []; []; []; [bs "            <!-- same -->"]; []; []; []] (project_lines mixed).
Definition anchoredb (its : list item) : bool :=
  let K := keyed snd None its in
  forallb (fun n => match nth_error K n with
    | Some (k, (b, l)) => match b with [] => true | _ =>
        negb (contains 38 l) && match k with Some x => negb (contains 38 x) | None => true end &&
        forallb (fun m => match nth_error K m with Some (k', (_, l')) => negb (eqb_key k k' && starts_with (trim l) (trim l')) || (m =? n)%nat | None => true end) (seq 0 (length K)) end
    | None => true end) (seq 0 (length K)).
Lemma anchoredb_sound its : anchoredb its = true -> anchored its.
Proof.
  unfold anchoredb. intros H n k b l E Ne. rewrite forallb_forall in H. assert (I : In n (seq 0 (length (keyed snd None its)))) by (apply in_seq; split; [lia|]; apply (proj1 (nth_error_Some _ _)); now rewrite E).
  specialize (H n I). rewrite E in H. destruct b as [|b0 b]; [contradiction|]. apply andb_true_iff in H as [H H3]. apply andb_true_iff in H as [H1 H2]. apply negb_true_iff, contains_false in H1.
  split; [exact H1|]. split; [intros x ->; now apply negb_true_iff, contains_false in H2|]. intros m b' l' M (r & X). rewrite forallb_forall in H3.
  assert (J : In m (seq 0 (length (keyed snd None its)))) by (apply in_seq; split; [lia|]; apply (proj1 (nth_error_Some _ _)); now rewrite M). specialize (H3 m J). rewrite M in H3.
  assert (Y : starts_with (trim l) (trim l') = true) by (apply starts_with_spec; eauto). rewrite Y, (proj2 (eqb_key_spec k k) eq_refl) in H3. now apply Nat.eqb_eq in H3.
Qed.
Local Ltac no_break := vm_compute; intuition discriminate.
Example C89_example : one_lines mixed /\ no_empty_key mixed /\ lays_out mixed_items mixed /\ Forall (fun i => comments (fst i)) mixed_items /\ anchored mixed_items /\
  ~ neat mixed_items /\ sort mixed <> mixed /\ reads_as (fun _ => Some mixed) mixed_items mixed.
Proof.
  split; [|split; [|split; [|split; [|split; [|split; [|split]]]]]].
  - split; [no_break|]. split; repeat (first [constructor | no_break]).
  - repeat constructor; discriminate.
  - vm_compute. reflexivity.
  - assert (one : forall l, opens l -> closes l -> plain l -> comments [l]) by (intros l H1 H2 H3; apply (more_comments [l] []); [now constructor|constructor]).
    assert (Op : forall l r, trim l = bs "<!--" ++ r -> opens l) by (intros l r H; now exists r).
    assert (Cl : forall l r, trim l = r ++ bs "-->" -> closes l) by (intros l r H; now exists r).
    assert (Pl : forall l, contains 10 l = false -> contains 13 l = false -> plain l) by (intros l H1 H2; split; now apply contains_false).
    change mixed_items with (combine [[bs "      <!-- top"; bs "   of the file -->  "]; []; [bs "        <!-- one -->"; bs "<!-- two -->"]; []; []; []; [bs "            <!-- same -->"]; [bs "            <!-- end -->"]; []; []; []; [bs "            <!-- same -->"]; []; []; []] (project_lines mixed)).
    apply Forall_forall. intros [b l] I. apply in_combine_l in I. cbn [fst]. repeat (destruct I as [<-|I]; [|]); try contradiction; try constructor.
    + apply (more_comments [bs "      <!-- top"; bs "   of the file -->  "] []); [|constructor]. apply (on_lines (bs "      <!-- top") [] (bs "   of the file -->  ")).
      * now apply Pl.
      * now apply (Op _ (bs " top")).
      * intros C. apply closes_spec in C. vm_compute in C. discriminate.
      * constructor.
      * now apply Pl.
      * intros C. apply opens_spec in C. vm_compute in C. discriminate.
      * now apply (Cl _ (bs "of the file ")).
      * intros r C. vm_compute in C. discriminate.
      * intros r C. vm_compute in C. discriminate.
    + apply (more_comments [bs "        <!-- one -->"] [bs "<!-- two -->"]).
      * constructor; [now apply Pl|now apply (Op _ (bs " one -->"))|now apply (Cl _ (bs "<!-- one "))].
      * apply one; [now apply (Op _ (bs " two -->"))|now apply (Cl _ (bs "<!-- two "))|now apply Pl].
    + apply one; [now apply (Op _ (bs " same -->"))|now apply (Cl _ (bs "<!-- same "))|now apply Pl].
    + apply one; [now apply (Op _ (bs " end -->"))|now apply (Cl _ (bs "<!-- end "))|now apply Pl].
    + apply one; [now apply (Op _ (bs " same -->"))|now apply (Cl _ (bs "<!-- same "))|now apply Pl].
  - apply anchoredb_sound. vm_compute. reflexivity.
  - intros H. inversion H as [|? ? H1 _]; subst. destruct H1 as [H1|(w & B & J)]; [discriminate|]. inversion B as [w' l F Nl E1 E2]; subst. destruct w as [|c w].
    + vm_compute in J. discriminate.
    + inversion F; subst. vm_compute in E1. discriminate.
  - intros E. vm_compute in E. discriminate.
  - reflexivity.
Qed.
(** The sorted file. *)
Example C89_example_sorted : option_map lines (rewritten (fun _ => Some mixed) false (file_of mixed_items)) = Some (header :: map q
  [bs "<!-- top"; bs "   of the file -->"; bs "<Project name='P'>"; bs "    <Package name='A'>"; bs "        <Key ID='c'>"; bs "            <!-- same -->"; bs "            <English>x</English>"; bs "        </Key>";
   bs "    </Package>"; bs "    <Package name='Z &amp; Y'>"; bs "        <Key ID='a'>"; bs "            <!-- same -->"; bs "            <English>x</English>"; bs "            <!-- end -->"; bs "        </Key>";
   bs "        <!-- one -->"; bs "<!-- two -->"; bs "        <Key ID='b'>"; bs "            <English>x & y</English>"; bs "        </Key>"; bs "    </Package>"; bs "</Project>"]).
Proof. vm_compute. reflexivity. Qed.

Definition two_languages : key := Key (bs "k") None None None None None None (Some (bs "tak")) (Some (bs "sim")) None None None None None None None None None None None None None None None None.
Definition nested : project := Project (bs "P") [Package (bs "A") [] [Package (bs "B") [two_languages] []]].
Example C89_example_languages : let its := map (fun l => ([], l)) (project_lines nested) in
  lays_out its nested /\ (exists g, In g (packages nested) /\ holds two_languages g) /\ says two_languages (bs "Polish") (bs "tak") /\ ~ says two_languages (bs "Polish") (bs "sim") /\
  In (bs "                <Portuguese>sim</Portuguese>") (map snd its).
Proof.
  cbv zeta. split; [vm_compute; reflexivity|]. split; [eexists; split; [left; reflexivity|]; eapply holds_container; [left; reflexivity|]; constructor; now left|].
  split; [now constructor|]. split; [|vm_compute; tauto]. intros H. apply translations_says in H. vm_compute in H. destruct H as [H|[H|[]]]; discriminate.
Qed.

Print Assumptions C89_unchanged.
Print Assumptions C89_comments_stay.
Print Assumptions C89_only_languages.
Print Assumptions C89_warns.
Print Assumptions C89_sorted_once.
Print Assumptions C89_command.
Print Assumptions C89_blank_line_refuted.
Print Assumptions C89_ampersand_refuted.
Print Assumptions C89_last_refuted.
Print Assumptions C89_package_end_refuted.
Print Assumptions C89_beside_refuted.
Print Assumptions C89_empty_key_refuted.
Print Assumptions C89_languages.
