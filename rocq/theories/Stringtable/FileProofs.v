(** Proofs about stringtable files, for C89. *)
From Coq Require Import String.
From Verif Require Import Base.Tactics Base.Bytes Base.Ascii Base.Sort Base.Text Stringtable.Model Stringtable.Props Stringtable.FileModel Stringtable.FileSpec.
Local Open Scope N_scope.
Local Open Scope list_scope.

(** ** Taking back the protection of ampersands *)
Lemma starts_inv : forall p s r, starts p s = Some r -> s = p ++ r.
Proof.
  induction p as [|a p IH]; intros s r; cbn [starts]; [now intros [= ->]|]. destruct s as [|b s]; [discriminate|].
  destruct (a =? b) eqn:E; [|discriminate]. apply N.eqb_eq in E as ->. intros H. cbn. f_equal. auto.
Qed.
Lemma unprotect_more : forall n s, (length s <= n)%nat -> unprotect n s = unprotect (length s) s.
Proof.
  enough (H : forall m n s, (length s <= n)%nat -> (length s <= m)%nat -> unprotect n s = unprotect m s) by eauto.
  induction m as [|m IH]; intros n s Hn Hm.
  - destruct s; [|cbn in Hm; lia]. destruct n; reflexivity.
  - destruct s as [|c r]; [destruct n; reflexivity|]. destruct n as [|n]; [cbn in Hn; lia|]. cbn [unprotect length] in *.
    destruct (starts (bs "&amp;amp;") (c :: r)) as [r'|] eqn:E.
    + apply starts_inv in E. assert (L : length (c :: r) = length (bs "&amp;amp;" ++ r')) by now rewrite <- E.
      rewrite app_length in L. cbn [length] in L. change (length (bs "&amp;amp;")) with 9%nat in L. f_equal. apply IH; lia.
    + f_equal. apply IH; lia.
Qed.
Lemma unp_cons c r : c <> 38 -> unprotected (c :: r) = c :: unprotected r.
Proof. intros H. unfold unprotected. cbn [length]. now apply unprotect_skip. Qed.
Lemma unp_app w r : ~ In 38 w -> unprotected (w ++ r) = w ++ unprotected r.
Proof. induction w as [|c w IH]; intros H; [reflexivity|]. cbn [app]. rewrite unp_cons by (intros ->; apply H; now left). f_equal. apply IH. intros K. apply H. now right. Qed.
Lemma unp_none w : ~ In 38 w -> unprotected w = w.
Proof. intros H. rewrite <- (app_nil_r w) at 1. rewrite unp_app by exact H. now rewrite app_nil_r. Qed.
Lemma unprotect_step n s r : starts (bs "&amp;amp;") s = Some r -> unprotect (S n) s = 38 :: unprotect n r.
Proof. intros H. destruct s as [|c s]; [discriminate|]. cbn [unprotect]. now rewrite H. Qed.
Lemma unp_amp r : unprotected (bs "&amp;amp;" ++ r) = 38 :: unprotected r.
Proof.
  unfold unprotected. rewrite app_length. change (length (bs "&amp;amp;") + length r)%nat with (S (8 + length r)).
  rewrite (unprotect_step _ _ r) by apply starts_app. f_equal. apply unprotect_more. lia.
Qed.
Lemma unp_other r : starts (bs "&amp;amp;") (38 :: r) = None -> unprotected (38 :: r) = 38 :: unprotected r.
Proof. intros H. unfold unprotected. cbn [length unprotect]. now rewrite H. Qed.
(** Induction along the replacement. *)
Lemma unp_ind (P : bytes -> Prop) : P [] -> (forall c r, c <> 38 -> P r -> P (c :: r)) -> (forall r, P r -> P (bs "&amp;amp;" ++ r)) ->
  (forall r, starts (bs "&amp;amp;") (38 :: r) = None -> P r -> P (38 :: r)) -> forall s, P s.
Proof.
  intros P0 P1 P2 P3 s. remember (length s) as n eqn:E. assert (L : (length s <= n)%nat) by lia. clear E. revert s L. induction n as [|n IH]; intros s L.
  - destruct s; [exact P0|cbn in L; lia].
  - destruct s as [|c r]; [exact P0|]. cbn [length] in L. destruct (N.eq_dec c 38) as [->|D]; [|apply P1; [exact D|apply IH; lia]].
    destruct (starts (bs "&amp;amp;") (38 :: r)) as [r'|] eqn:E; [|apply P3; [exact E|apply IH; lia]].
    apply starts_inv in E. assert (L' : length (38 :: r) = length (bs "&amp;amp;" ++ r')) by now rewrite <- E.
    rewrite app_length in L'. change (length (bs "&amp;amp;")) with 9%nat in L'. cbn [length] in L'. rewrite E. apply P2, IH. lia.
Qed.
Lemma starts_none_app p s c : starts p s = None -> ~ In c p -> starts p (s ++ [c]) = None.
Proof.
  revert s. induction p as [|a p IH]; intros s; cbn [starts]; [discriminate|]. destruct s as [|b s]; cbn [app].
  - intros _ H. replace (a =? c) with false; [reflexivity|]. symmetry. apply N.eqb_neq. intros ->. apply H. now left.
  - destruct (a =? b); [|reflexivity]. intros H1 H2. apply IH; [exact H1|]. intros K. apply H2. now right.
Qed.
Lemma unp_end : forall s, unprotected (s ++ [62]) = unprotected s ++ [62].
Proof.
  apply (unp_ind (fun s => unprotected (s ++ [62]) = unprotected s ++ [62])).
  - reflexivity.
  - intros c r H IH. cbn [app]. rewrite !unp_cons by exact H. cbn [app]. now f_equal.
  - intros r IH. rewrite <- app_assoc, !unp_amp, IH. reflexivity.
  - intros r H IH. cbn [app]. rewrite (unp_other r H). rewrite unp_other; [now rewrite IH|].
    exact (starts_none_app (bs "&amp;amp;") (38 :: r) 62 H ltac:(vm_compute; intuition discriminate)).
Qed.
Lemma unp_starts p : ~ In 38 p -> forall s, starts_with p (unprotected s) = starts_with p s.
Proof.
  induction p as [|a p IH]; intros H s; [reflexivity|]. assert (a <> 38) by (intros ->; apply H; now left). assert (H' : ~ In 38 p) by (intros K; apply H; now right).
  assert (A : forall r, starts_with (a :: p) (38 :: r) = false). { intros r. cbn [starts_with]. now rewrite (proj2 (N.eqb_neq a 38)). }
  destruct s as [|c r]; [reflexivity|]. destruct (N.eq_dec c 38) as [->|D].
  - rewrite A. destruct (starts (bs "&amp;amp;") (38 :: r)) as [r'|] eqn:E.
    + apply starts_inv in E. rewrite E, unp_amp. apply A.
    + rewrite unp_other by exact E. apply A.
  - rewrite unp_cons by exact D. cbn [starts_with]. now rewrite IH.
Qed.
Lemma unp_in_38 s : In 38 s -> In 38 (unprotected s).
Proof.
  revert s. apply (unp_ind (fun s => In 38 s -> In 38 (unprotected s))); [auto| | |].
  - intros c r H IH [->|K]; [contradiction|]. rewrite unp_cons by exact H. right. auto.
  - intros r _ _. rewrite unp_amp. now left.
  - intros r E _ _. rewrite unp_other by exact E. now left.
Qed.
Lemma unp_in c s : In c (unprotected s) -> In c s.
Proof.
  revert s. apply (unp_ind (fun s => In c (unprotected s) -> In c s)); [auto| | |].
  - intros x r H IH. rewrite unp_cons by exact H. cbn. intuition.
  - intros r IH. rewrite unp_amp. rewrite in_app_iff. intros [<-|K]; [left; now left|auto].
  - intros r E IH. rewrite unp_other by exact E. cbn. intuition.
Qed.

(** ** Lines of elements *)
Definition body (t : bytes) : Prop := exists c, t = 60 :: c ++ [62] /\ hd 0 c <> 33.
Definition shaped (l : bytes) : Prop := exists n t, l = repeat 32 n ++ t /\ body t.
Lemma body_trimmed t : body t -> trim t = t.
Proof.
  intros (c & -> & _). apply trim_fixed. unfold trimmed. split.
  - intros x r [= <- _]. reflexivity.
  - intros x r H. change (60 :: c ++ [62]) with ((60 :: c) ++ [62]) in H. apply app_inj_tail in H as [_ <-]. reflexivity.
Qed.

Lemma trim_spaces n t : trim t = t -> (forall r, t <> 32 :: r) -> trim (repeat 32 n ++ t) = t.
Proof.
  intros H _. assert (E : trim_start (repeat 32 n ++ t) = trim_start t). { induction n as [|n IH]; [reflexivity|]. cbn [repeat app trim_start]. exact IH. }
  unfold trim. rewrite E. exact H.
Qed.
Lemma trim_shaped n t : body t -> trim (repeat 32 n ++ t) = t.
Proof. intros H. apply trim_spaces; [now apply body_trimmed|]. intros r ->. destruct H as (c & H & _). discriminate. Qed.
Lemma repeat_32 n c : In c (repeat 32 n) -> c = 32.
Proof. intros H. now apply repeat_spec in H. Qed.
Lemma unp_body t : body t -> body (unprotected t).
Proof.
  intros (c & -> & H). rewrite unp_cons by discriminate. rewrite unp_end. exists (unprotected c). split; [reflexivity|].
  destruct c as [|x c]; [exact H|]. destruct (N.eq_dec x 38) as [->|D].
  - destruct (starts (bs "&amp;amp;") (38 :: c)) as [r'|] eqn:E.
    + apply starts_inv in E. rewrite E, unp_amp. discriminate.
    + rewrite unp_other by exact E. discriminate.
  - now rewrite unp_cons by exact D.
Qed.
Lemma unp_spaces n t : unprotected (repeat 32 n ++ t) = repeat 32 n ++ unprotected t.
Proof. apply unp_app. intros H. now apply repeat_32 in H. Qed.
Lemma unp_shaped l : shaped l -> shaped (unprotected l).
Proof. intros (n & t & -> & H). exists n, (unprotected t). split; [apply unp_spaces|now apply unp_body]. Qed.
Lemma trim_unp l : shaped l -> trim (unprotected l) = unprotected (trim l).
Proof. intros (n & t & -> & H). rewrite unp_spaces, !trim_shaped; auto using unp_body. Qed.
Lemma shaped_body l : shaped l -> body (trim l).
Proof. intros (n & t & -> & H). now rewrite trim_shaped. Qed.
Lemma body_opens t r : body t -> t <> bs "<!--" ++ r.
Proof. intros (c & -> & H) E. destruct c as [|x c]; [discriminate|]. cbn in H. apply (f_equal (fun s => nth 1 s 0)) in E. cbn in E. congruence. Qed.
Lemma shaped_opens l : shaped l -> starts_with (bs "<!--") (trim l) = false.
Proof.
  intros H. destruct (starts_with _ _) eqn:E; [|reflexivity]. apply starts_with_spec in E as (r & E). now apply (body_opens _ r) in E; [|apply shaped_body].
Qed.
Lemma next_unp k l : shaped l -> next_key (option_map unprotected k) (trim (unprotected l)) = option_map unprotected (next_key k (trim l)).
Proof.
  intros H. rewrite trim_unp by exact H. unfold next_key.
  rewrite !unp_starts by (vm_compute; intuition discriminate). destruct (starts_with (bs "<Key") _); [reflexivity|]. now destruct (starts_with (bs "</Key>") _).
Qed.
Lemma leading_shaped n t : body t -> leading (repeat 32 n ++ t) = repeat 32 n.
Proof. intros (c & -> & _). induction n as [|n IH]; cbn [repeat app leading]; [reflexivity|]. change (is_ws 32) with true. cbv iota. now f_equal. Qed.

(** ** Lines of a text *)
Definition ends_well (l : bytes) : Prop := ~ In 10 l /\ forall r, l <> r ++ [13].
Lemma strip_cr_id l : (forall r, l <> r ++ [13]) -> strip_cr l = l.
Proof.
  intros H. unfold strip_cr. destruct (rev l) as [|c r] eqn:E; [reflexivity|]. destruct (N.eq_dec c 13) as [->|D].
  - apply (f_equal (@rev N)) in E. rewrite rev_involutive in E. cbn in E. now apply H in E.
  - destruct c as [|p]; [reflexivity|]. do 4 (destruct p as [p|p|]; try reflexivity). congruence.
Qed.
Lemma lines_ended : forall ls, Forall ends_well ls -> lines (flat_map ended ls) = ls.
Proof.
  induction 1 as [|l ls [H1 H2] _ IH]; [reflexivity|]. cbn [flat_map]. unfold ended at 1. rewrite <- app_assoc. cbn [app]. unfold lines.
  rewrite split_on_app by exact H1. unfold lines in IH.
  destruct (split_on 10 (flat_map ended ls)) as [|x y] eqn:E; [now apply split_on_nonempty in E|].
  change (strip_cr l :: lines_go (x :: y) = l :: ls). now rewrite strip_cr_id, IH by exact H2.
Qed.
Lemma plain_well l : plain l -> ends_well l.
Proof. intros [H1 H2]. split; [exact H1|]. intros r ->. apply H2. apply in_or_app. right. now left. Qed.
Lemma shaped_well l : shaped l -> ~ In 10 l -> ends_well l.
Proof. intros (n & t & -> & c & -> & _) H. split; [exact H|]. intros r E. change (60 :: c ++ [62]) with ((60 :: c) ++ [62]) in E. rewrite app_assoc in E. apply app_inj_tail in E as [_ E]. discriminate. Qed.

(** ** The lines that are written *)
Local Ltac asc := repeat first [rewrite <- app_assoc | progress cbn [app]]; reflexivity.
Definition opening (tag attribute value : bytes) : bytes := bs "<" ++ tag ++ bs " " ++ attribute ++ [61; 34] ++ attribute_escape value ++ [34; 62].
Definition closing (tag : bytes) : bytes := bs "</" ++ tag ++ bs ">".
Lemma opening_body tag a v : hd 0 tag <> 33 -> body (opening tag a v).
Proof.
  intros H. exists (tag ++ bs " " ++ a ++ [61; 34] ++ attribute_escape v ++ [34]). split.
  - unfold opening. change (bs "<") with [60]. cbn [app]. f_equal. asc.
  - destruct tag; [discriminate|exact H].
Qed.
Lemma closing_body tag : body (closing tag).
Proof. exists (47 :: tag). split; [reflexivity|discriminate]. Qed.
Lemma both_body tag a v : hd 0 tag <> 33 -> body (opening tag a v ++ closing tag).
Proof.
  intros H. destruct (opening_body tag a v H) as (c & -> & H1). exists (c ++ [62] ++ bs "</" ++ tag). split.
  - unfold closing. change (bs ">") with [62]. cbn [app]. asc.
  - destruct c; [discriminate|exact H1].
Qed.
Lemma element_eq d tag a v inner : element d tag a v inner =
  match inner with [] => [indent d ++ opening tag a v ++ closing tag] | _ => (indent d ++ opening tag a v) :: inner ++ [indent d ++ closing tag] end.
Proof. unfold element. destruct inner; [|reflexivity]. unfold opening, closing. asc. Qed.
Definition translated (t : bytes * bytes) : bytes := bs "<" ++ fst t ++ bs ">" ++ partial_escape (minimal_escape (snd t)) ++ bs "</" ++ fst t ++ bs ">".
Lemma translation_line_eq d t : translation_line d t = indent d ++ translated t.
Proof. reflexivity. Qed.
Lemma translated_body t : hd 0 (fst t) <> 33 -> body (translated t).
Proof.
  destruct t as [t s]. cbn [fst]. intros H. exists (t ++ bs ">" ++ partial_escape (minimal_escape s) ++ bs "</" ++ t). split.
  - unfold translated. cbn [fst snd]. change (bs "<") with [60]. change (bs ">") with [62]. cbn [app]. f_equal. asc.
  - destruct t; [discriminate|exact H].
Qed.
Definition tags : list bytes :=
  map bs ["Original"; "English"; "Czech"; "French"; "Spanish"; "Italian"; "Polish"; "Portuguese"; "Russian"; "German"; "Korean"; "Japanese";
          "Chinese"; "Chinesesimp"; "Turkish"; "Swedish"; "Slovak"; "Serbocroatian"; "Norwegian"; "Icelandic"; "Hungarian"; "Greek"; "Finnish"; "Dutch"]%string.
Lemma translations_tags k t : In t (translations k) -> In (fst t) tags.
Proof.
  unfold translations. rewrite in_flat_map. intros ((n & o) & H & T). destruct o as [s|]; [|contradiction]. destruct T as [<-|[]]. cbn [fst].
  apply (in_map fst) in H. exact H.
Qed.
(** A tag that is not taken for a key's, nor for a comment's. *)
Definition fine (t : bytes) : bool := negb (starts_with (bs "!") t) && negb (starts_with (bs "Key") t) && negb (starts_with (bs "/Key>") t).
Lemma tags_fine : forallb (fun t => fine (t ++ bs ">")) tags = true.
Proof. vm_compute. reflexivity. Qed.
Lemma element_all (P : bytes -> Prop) d tag a v inner :
  P (indent d ++ opening tag a v ++ closing tag) -> P (indent d ++ opening tag a v) -> P (indent d ++ closing tag) -> Forall P inner -> Forall P (element d tag a v inner).
Proof.
  intros H1 H2 H3 H4. rewrite element_eq. destruct inner as [|x y]; [now constructor|]. constructor; [exact H2|]. apply Forall_app. split; [exact H4|now constructor].
Qed.
Lemma indent_shaped d t : body t -> shaped (indent d ++ t).
Proof. intros H. exists (4 * d)%nat, t. now split. Qed.
Lemma element_shaped d tag a v inner : hd 0 tag <> 33 -> Forall shaped inner -> Forall shaped (element d tag a v inner).
Proof. intros H H'. apply element_all; auto using indent_shaped, opening_body, closing_body, both_body. Qed.
Lemma tag_hd t : In t tags -> hd 0 t <> 33.
Proof.
  intros H. pose proof (proj1 (forallb_forall _ _) tags_fine t H) as F. cbv beta in F. unfold fine in F. destruct t as [|x t]; [discriminate|]. cbn [hd]. intros ->.
  cbn [app] in F. assert (E : starts_with (bs "!") (33 :: t ++ bs ">") = true) by (apply starts_with_spec; now exists (t ++ bs ">")). rewrite E in F. discriminate.
Qed.
Lemma key_lines_shaped d k : Forall shaped (key_lines d k).
Proof.
  apply element_shaped; [discriminate|]. apply Forall_map. apply Forall_forall. intros t H. rewrite translation_line_eq. apply indent_shaped, translated_body, tag_hd, (translations_tags k), H.
Qed.
Lemma package_lines_shaped : forall p d tag, hd 0 tag <> 33 -> Forall shaped (package_lines d tag p).
Proof.
  induction p as [n ks cs IH] using package_ind'. intros d tag H. cbn [package_lines]. apply element_shaped; [exact H|]. apply Forall_app. split.
  - apply Forall_flat_map. apply Forall_forall. intros k _. apply key_lines_shaped.
  - apply Forall_flat_map. eapply Forall_impl; [|exact IH]. intros q Q. apply Q. discriminate.
Qed.
Lemma project_lines_shaped p : Forall shaped (project_lines p).
Proof.
  apply element_shaped; [discriminate|]. apply Forall_flat_map. apply Forall_forall. intros q _. apply package_lines_shaped. discriminate.
Qed.

Lemma escape_line (f : N -> bytes) s : (forall c, c <> 10 -> ~ In 10 (f c)) -> one_line s -> one_line (flat_map f s).
Proof. intros F H K. apply in_flat_map in K as (c & K1 & K2). apply (F c); [intros ->; now apply H|exact K2]. Qed.
Local Ltac cases := intros c C; repeat match goal with |- context [if ?b then _ else _] => destruct b end; vm_compute; intuition congruence.
Lemma attribute_line s : one_line s -> one_line (attribute_escape s).
Proof. apply escape_line. cases. Qed.
Lemma translation_one_line s : one_line s -> one_line (partial_escape (minimal_escape s)).
Proof. intros H. apply escape_line; [cases|]. apply escape_line; [cases|exact H]. Qed.
Lemma indent_line d : one_line (indent d).
Proof. intros H. apply repeat_spec in H. discriminate. Qed.
Lemma app_line a b : one_line a -> one_line b -> one_line (a ++ b).
Proof. unfold one_line. rewrite in_app_iff. tauto. Qed.
Lemma opening_line tag a v : one_line tag -> one_line a -> one_line v -> one_line (opening tag a v).
Proof. intros H1 H2 H3. unfold opening. repeat apply app_line; auto using attribute_line; vm_compute; intuition discriminate. Qed.
Lemma closing_line tag : one_line tag -> one_line (closing tag).
Proof. intros H1. unfold closing. repeat apply app_line; auto; vm_compute; intuition discriminate. Qed.
Lemma element_line d tag a v inner : one_line tag -> one_line a -> one_line v -> Forall one_line inner -> Forall one_line (element d tag a v inner).
Proof. intros. apply element_all; auto using app_line, indent_line, opening_line, closing_line. Qed.
Lemma tags_line : forallb (fun t => negb (contains 10 t)) tags = true.
Proof. vm_compute. reflexivity. Qed.
Lemma tag_line t : In t tags -> one_line t.
Proof. intros H. pose proof (proj1 (forallb_forall _ _) tags_line t H) as F. apply negb_true_iff in F. now apply contains_false. Qed.
Definition key_ok (k : key) : Prop := one_line (id k) /\ Forall (fun t => one_line (snd t)) (translations k).
Lemma key_lines_line d k : key_ok k -> Forall one_line (key_lines d k).
Proof.
  intros [H1 H2]. apply element_line; [vm_compute; intuition discriminate|vm_compute; intuition discriminate|exact H1|]. apply Forall_map. apply Forall_forall. intros t H. rewrite translation_line_eq.
  apply app_line; [apply indent_line|]. assert (one_line (fst t)) by (apply tag_line, (translations_tags k), H). rewrite Forall_forall in H2.
  unfold translated. repeat apply app_line; auto using translation_one_line; vm_compute; intuition discriminate.
Qed.
Lemma package_lines_line : forall p d tag, one_line tag -> names_all one_line p -> keys_all key_ok p -> Forall one_line (package_lines d tag p).
Proof.
  induction p as [n ks cs IH] using package_ind'. intros d tag H Hn Hk. inversion Hn as [? ? ? N1 N2]; subst. inversion Hk as [? ? ? K1 K2]; subst. cbn [package_lines].
  apply element_line; [exact H|vm_compute; intuition discriminate|exact N1|]. apply Forall_app. split.
  - apply Forall_flat_map. eapply Forall_impl; [|exact K1]. intros k. apply key_lines_line.
  - apply Forall_flat_map. rewrite Forall_forall in *. intros q Q. apply IH; auto. vm_compute; intuition discriminate.
Qed.
Lemma project_lines_line p : one_lines p -> Forall one_line (project_lines p).
Proof.
  intros (H1 & H2 & H3). apply element_line; [vm_compute; intuition discriminate|vm_compute; intuition discriminate|exact H1|]. apply Forall_flat_map. rewrite Forall_forall in *. intros q Q.
  apply package_lines_line; [vm_compute; intuition discriminate|exact (H2 q Q)|exact (H3 q Q)].
Qed.
Lemma serialized_lines p : one_lines p -> lines (serialized p) = project_lines p.
Proof.
  intros H. apply lines_ended. pose proof (project_lines_line p H) as L. pose proof (project_lines_shaped p) as S. rewrite Forall_forall in *. intros l I.
  apply shaped_well; [now apply S|now apply L].
Qed.

(** ** Writing *)
Notation as_is := (fun l : bytes => l).
Lemma keyed_cons {A} (line : A -> bytes) k a r : keyed line k (a :: r) = (k, a) :: keyed line (next_key k (trim (line a))) r.
Proof. reflexivity. Qed.
Lemma keyed_map {A B} (f : A -> B) (line : B -> bytes) k l : keyed line k (map f l) = map (fun x => (fst x, f (snd x))) (keyed (fun a => line (f a)) k l).
Proof. revert k. induction l as [|a l IH]; intros k; [reflexivity|]. cbn [map]. rewrite !keyed_cons. cbn [map fst snd]. now rewrite IH. Qed.
Lemma write_lines cs : forall ls out (clear : bool) k,
  fst (fst (fold_left (write_line cs) ls (out, clear, k))) =
  out ++ flat_map (fun x => before_line cs (fst x) (snd x) ++ ended (unprotected (snd x))) (keyed as_is (if clear then None else k) ls).
Proof.
  induction ls as [|l ls IH]; intros out clear k; [cbn; now rewrite app_nil_r|]. cbn [fold_left]. rewrite keyed_cons. unfold write_line at 2. unfold next_key.
  set (k' := if clear then None else k). cbn [flat_map fst snd].
  destruct (starts_with (bs "<Key") (trim l)); [|destruct (starts_with (bs "</Key>") (trim l))]; rewrite IH; now rewrite <- !app_assoc.
Qed.
Lemma to_writer_eq p cs : one_lines p ->
  to_writer p cs = ended header ++ flat_map (fun x => before_line cs (fst x) (snd x) ++ ended (unprotected (snd x))) (keyed as_is None (project_lines p)).
Proof. intros H. unfold to_writer. rewrite write_lines. now rewrite serialized_lines. Qed.

(** ** Reading *)
Lemma ends_with_spec p s : ends_with p s = true <-> exists r, s = r ++ p.
Proof.
  unfold ends_with. rewrite starts_with_spec. split; intros (r & E).
  - exists (rev r). apply (f_equal (@rev N)) in E. now rewrite rev_involutive, rev_app_distr, rev_involutive in E.
  - exists (rev r). now rewrite E, rev_app_distr.
Qed.
Lemma opens_spec l : starts_with (bs "<!--") (trim l) = true <-> opens l.
Proof. apply starts_with_spec. Qed.
Lemma opens_false l : ~ opens l -> starts_with (bs "<!--") (trim l) = false.
Proof. intros H. destruct (starts_with _ _) eqn:E; [|reflexivity]. now apply opens_spec in E. Qed.
Lemma closes_spec l : ends_with (bs "-->") (trim l) = true <-> closes l.
Proof. apply ends_with_spec. Qed.
Lemma closes_false l : ~ closes l -> ends_with (bs "-->") (trim l) = false.
Proof. intros H. destruct (ends_with _ _) eqn:E; [|reflexivity]. now apply closes_spec in E. Qed.
Lemma opens_nonempty l : opens l -> is_empty l = false.
Proof. intros (r & E). destruct l; [discriminate|reflexivity]. Qed.
(** What a further line does to what was collected. *)
Definition below (b l : bytes) : bytes := match b with [] => l | _ => b ++ [10] ++ l end.
Lemma opens_key k l : opens l -> next_key k (trim l) = k.
Proof. intros (r & ->). reflexivity. Qed.
Lemma not_key k z : (forall r, trim z <> bs "<Key" ++ r) -> (forall r, trim z <> bs "</Key>" ++ r) -> next_key k (trim z) = k.
Proof.
  intros H1 H2. unfold next_key. destruct (starts_with (bs "<Key") _) eqn:E; [apply starts_with_spec in E as (r & E); now apply H1 in E|].
  destruct (starts_with (bs "</Key>") _) eqn:E'; [apply starts_with_spec in E' as (r & E'); now apply H2 in E'|reflexivity].
Qed.
Lemma read_open b k f l : opens l -> read_line (Reading b false k f) l = Reading (below b l) (negb (ends_with (bs "-->") (trim l))) k f.
Proof.
  intros H. unfold read_line. cbn [reading_comments buffer in_key found]. rewrite (proj2 (opens_spec l) H), opens_key by exact H.
  destruct b as [|x b]; cbn [is_empty negb andb below]; destruct (ends_with _ _); cbn [negb]; now rewrite ?app_nil_l, <- ?app_assoc.
Qed.
Lemma read_inside b k f l : ~ opens l -> read_line (Reading b true k f) l =
  Reading (b ++ [10] ++ l) (negb (ends_with (bs "-->") (trim l))) (if ends_with (bs "-->") (trim l) then next_key k (trim l) else k) f.
Proof.
  intros H. unfold read_line. cbn [reading_comments buffer in_key found]. rewrite (opens_false l H). cbn [negb andb]. rewrite <- app_assoc. now destruct (ends_with _ _).
Qed.
Lemma read_other b k f l : ~ opens l -> read_line (Reading b false k f) l =
  Reading [] false (next_key k (trim l)) (f ++ match b with [] => [] | _ => [(trim b, trim l, k)] end).
Proof.
  intros H. unfold read_line. cbn [reading_comments buffer in_key found]. rewrite (opens_false l H). cbn [negb andb]. destruct b; cbn [is_empty negb]; [now rewrite app_nil_r|reflexivity].
Qed.
Definition belows (b : bytes) (c : list bytes) : bytes := match c with [] => b | _ => below b (join [10] c) end.
Lemma join_cons2 (s : bytes) x y r : join s (x :: y :: r) = x ++ s ++ join s (y :: r).
Proof. reflexivity. Qed.
Lemma read_inside_many : forall m b k f z, Forall (fun x => plain x /\ ~ opens x /\ ~ closes x) m -> ~ opens z -> closes z -> next_key k (trim z) = k ->
  fold_left read_line (m ++ [z]) (Reading b true k f) = Reading (b ++ [10] ++ join [10] (m ++ [z])) false k f.
Proof.
  induction m as [|x m IH]; intros b k f z Hm Hz Cz Kz.
  - cbn [app fold_left join]. rewrite read_inside by exact Hz. now rewrite (proj2 (closes_spec z) Cz), Kz.
  - inversion Hm as [|? ? (_ & X1 & X2) Hm']; subst. cbn [app fold_left]. rewrite read_inside, closes_false by assumption. cbn [negb]. rewrite IH by assumption.
    destruct (m ++ [z]) as [|y r] eqn:E; [now destruct m|]. rewrite join_cons2, <- !app_assoc. reflexivity.
Qed.
Lemma below_below b x y : x <> [] -> below (below b x) y = below b (x ++ [10] ++ y).
Proof. intros H. destruct b as [|c b]; cbn [below]; [destruct x; [contradiction|reflexivity]|]. change (((c :: b) ++ [10] ++ x) ++ [10] ++ y = (c :: b) ++ [10] ++ x ++ [10] ++ y). now rewrite <- !app_assoc. Qed.
Lemma opens_ne l : opens l -> l <> [].
Proof. intros (r & E) ->. discriminate. Qed.
Lemma below_app b x y : x <> [] -> below b x ++ y = below b (x ++ y).
Proof. intros H. destruct b; cbn [below]; [reflexivity|]. cbn [app]. rewrite <- ?app_assoc. reflexivity. Qed.
Lemma read_comment c b k f : one_comment c -> fold_left read_line c (Reading b false k f) = Reading (below b (join [10] c)) false k f.
Proof.
  intros [l _ H1 H2|l m z _ H1 H2 H3 _ H4 H5 H6 H7].
  - cbn [fold_left join]. rewrite read_open by exact H1. now rewrite (proj2 (closes_spec l) H2).
  - cbn [fold_left]. rewrite read_open, closes_false by assumption. cbn [negb]. rewrite read_inside_many; auto using not_key.
    rewrite below_app by (now apply opens_ne). f_equal. destruct (m ++ [z]) as [|y r] eqn:E; [now destruct m|]. now rewrite join_cons2.
Qed.
Lemma one_comment_first c : one_comment c -> exists l r, c = l :: r /\ opens l.
Proof. intros [l|l m z]; eauto. Qed.
Lemma join_app (s : bytes) a b : a <> [] -> b <> [] -> join s (a ++ b) = join s a ++ s ++ join s b.
Proof.
  intros Ha Hb. induction a as [|x a IH]; [contradiction|]. destruct a as [|y a].
  - cbn [app]. destruct b; [contradiction|]. reflexivity.
  - cbn [app] in *. rewrite !join_cons2, IH by discriminate. now rewrite <- !app_assoc.
Qed.
Lemma join_first (s : bytes) l r : l <> [] -> join s (l :: r) <> [].
Proof. intros H. destruct r; cbn [join]; [exact H|]. destruct l; [contradiction|discriminate]. Qed.
Lemma read_comments c k f : comments c -> forall b, fold_left read_line c (Reading b false k f) = Reading (belows b c) false k f.
Proof.
  induction 1 as [|c d H1 H2 IH]; intros b; [reflexivity|]. rewrite fold_left_app, read_comment, IH by exact H1.
  destruct (one_comment_first c H1) as (l & r & -> & L). destruct d as [|x d]; [now rewrite app_nil_r|].
  unfold belows. rewrite below_below by (apply join_first; now apply opens_ne). rewrite join_app by discriminate. reflexivity.
Qed.

(** The comments found in a file, from the lines and the keys they stand in. *)
Notation entry := (option bytes * item)%type.
Definition own (x : entry) : list comment := let '(k, (b, l)) := x in match b with [] => [] | _ => [(trim (join [10] b), trim l, k)] end.
Definition seen (x : entry) : entry := (option_map unprotected (fst x), (fst (snd x), unprotected (snd (snd x)))).
Lemma shaped_not_open l : shaped l -> ~ opens l.
Proof. intros H O. apply opens_spec in O. rewrite shaped_opens in O by exact H. discriminate. Qed.
Lemma read_items : forall its k f, Forall (fun i => comments (fst i) /\ shaped (snd i)) its ->
  exists k', fold_left read_line (flat_map (fun i => fst i ++ [unprotected (snd i)]) its) (Reading [] false (option_map unprotected k) f) =
    Reading [] false k' (f ++ flat_map own (map seen (keyed snd k its))).
Proof.
  induction its as [|[b l] its IH]; intros k f H; [cbn; rewrite app_nil_r; eauto|]. inversion H as [|? ? [C S] H']; subst. cbn [fst snd] in C, S. cbn [flat_map].
  rewrite fold_left_app. cbn [fst snd]. rewrite fold_left_app, read_comments by exact C. cbn [fold_left].
  rewrite read_other by (apply shaped_not_open, unp_shaped, S). rewrite next_unp by exact S.
  destruct (IH (next_key k (trim l)) (f ++ match belows [] b with [] => [] | _ => [(trim (belows [] b), trim (unprotected l), option_map unprotected k)] end) H') as (k' & E).
  exists k'. rewrite E, keyed_cons. cbn [map flat_map snd]. rewrite <- app_assoc. do 3 f_equal. unfold seen. cbn [fst snd own].
  destruct C as [|c d O _]; [reflexivity|]. destruct (one_comment_first c O) as (x & r & -> & L). cbn [app belows below].
  pose proof (join_first [10] x (r ++ d) (opens_ne x L)) as J. now destruct (join [10] (x :: r ++ d)).
Qed.
Lemma fold_header its : fold_left read_line (file_lines its) (Reading [] false None []) = fold_left read_line (flat_map (fun i => fst i ++ [unprotected (snd i)]) its) (Reading [] false None []).
Proof. unfold file_lines. cbn [fold_left]. f_equal. Qed.
Lemma found_in its : Forall (fun i => comments (fst i) /\ shaped (snd i)) its ->
  found (fold_left read_line (file_lines its) (Reading [] false None [])) = flat_map own (map seen (keyed snd None its)).
Proof. intros H. rewrite fold_header. destruct (read_items its None [] H) as (k' & E). cbn [option_map] in E. now rewrite E. Qed.
Lemma keyed_snd {A} (line : A -> bytes) : forall l k, map snd (keyed line k l) = l.
Proof. induction l as [|a l IH]; intros k; [reflexivity|]. rewrite keyed_cons. cbn [map snd]. now rewrite IH. Qed.
Lemma own_seen its x : anchored its -> Forall (fun i => shaped (snd i)) its -> In x (keyed snd None its) -> own (seen x) = own x.
Proof.
  intros A S I. destruct x as [k [b l]]. unfold seen. cbn [fst snd own]. destruct b as [|b0 b]; [reflexivity|].
  apply In_nth_error in I as (n & I). destruct (A n k (b0 :: b) l I ltac:(discriminate)) as (A1 & A2 & _).
  assert (E : option_map unprotected k = k). { destruct k as [x|]; [|reflexivity]. cbn. now rewrite (unp_none x (A2 x eq_refl)). }
  now rewrite E, unp_none.
Qed.
Lemma found_anchored its : anchored its -> Forall (fun i => comments (fst i) /\ shaped (snd i)) its ->
  found (fold_left read_line (file_lines its) (Reading [] false None [])) = flat_map own (keyed snd None its).
Proof.
  intros A H. rewrite found_in by exact H. rewrite flat_map_concat_map, map_map, <- flat_map_concat_map.
  assert (S : Forall (fun i => shaped (snd i)) its) by (eapply Forall_impl; [|exact H]; now intros i [_ ?]).
  pose proof (fun x => own_seen its x A S) as O. induction (keyed snd None its) as [|x l IH]; [reflexivity|]. cbn [flat_map]. rewrite O by now left. f_equal. apply IH. intros y Y. apply O. now right.
Qed.

(** ** Each line gets its own comments back *)
Definition told_apart (K : list entry) : Prop :=
  forall n m k b l b' l', nth_error K n = Some (k, (b, l)) -> b <> [] -> nth_error K m = Some (k, (b', l')) -> (exists r, trim l' = trim l ++ r) -> m = n.
Lemma told_tail x K : told_apart (x :: K) -> told_apart K.
Proof. intros H n m k b l b' l' H1 H2 H3 H4. pose proof (H (S n) (S m) k b l b' l' H1 H2 H3 H4). lia. Qed.
Definition matching (k : option bytes) (l : bytes) (c : comment) : bool := let '(b, a, k') := c in starts_with a (trim l) && eqb_key k k'.
Lemma eqb_key_spec a b : eqb_key a b = true <-> a = b.
Proof. destruct a as [a|], b as [b|]; cbn [eqb_key]; split; try discriminate; auto; [intros H; apply eqb_bytes_spec in H as ->; reflexivity|intros [= ->]; apply eqb_bytes_refl]. Qed.
Lemma own_in c k b l : In c (own (k, (b, l))) -> b <> [] /\ c = (trim (join [10] b), trim l, k).
Proof. cbn. destruct b; cbn; [contradiction|]. intros [<-|[]]. split; [discriminate|reflexivity]. Qed.
Lemma own_matches k b l : filter (matching k l) (own (k, (b, l))) = own (k, (b, l)).
Proof.
  cbn [own]. destruct b; [reflexivity|]. cbn [filter matching]. rewrite (proj2 (eqb_key_spec k k) eq_refl).
  assert (E : starts_with (trim l) (trim l) = true) by (apply starts_with_spec; exists []; now rewrite app_nil_r). now rewrite E.
Qed.
Lemma filter_nil {A} (f : A -> bool) l : (forall x, In x l -> f x = false) -> filter f l = [].
Proof. induction l as [|x l IH]; intros H; [reflexivity|]. cbn. rewrite (H x (or_introl eq_refl)). apply IH. intros y Y. apply H. now right. Qed.
Lemma filter_own K k b l : told_apart K -> In (k, (b, l)) K -> filter (matching k l) (flat_map own K) = own (k, (b, l)).
Proof.
  intros T I. apply in_split in I as (A & B & ->). rewrite flat_map_app, filter_app. cbn [flat_map]. rewrite filter_app, own_matches.
  assert (F : forall n y, nth_error (A ++ (k, (b, l)) :: B) n = Some y -> n <> length A -> forall c, In c (own y) -> matching k l c = false).
  { intros n [k' [b' l']] Y D c C. apply own_in in C as [Cb ->]. cbn [matching]. destruct (starts_with _ _ && eqb_key k k') eqn:E; [|reflexivity]. exfalso. apply D.
    apply andb_true_iff in E as [E1 E2]. apply starts_with_spec in E1. apply eqb_key_spec in E2 as <-. symmetry. apply (T n (length A) k b' l' b l Y Cb); [|exact E1].
    rewrite nth_error_app2, Nat.sub_diag by lia. reflexivity. }
  rewrite (filter_nil _ (flat_map own A)), (filter_nil _ (flat_map own B)).
  - now rewrite app_nil_r.
  - intros c C. apply in_flat_map in C as (y & Y & C). apply In_nth_error in Y as (n & Y). apply (F (length A + S n)%nat y); [|lia|exact C].
    rewrite nth_error_app2 by lia. replace (length A + S n - length A)%nat with (S n) by lia. exact Y.
  - intros c C. apply in_flat_map in C as (y & Y & C). apply In_nth_error in Y as (n & Y). assert (n < length A)%nat by (apply (proj1 (nth_error_Some A n)); intros X; pose proof (eq_trans (eq_sym X) Y) as Z; discriminate Z).
    apply (F n y); [|lia|exact C]. now rewrite nth_error_app1.
Qed.
Lemma own_nodup K : told_apart K -> NoDup (flat_map own K).
Proof.
  induction K as [|[k [b l]] K IH]; intros T; [constructor|]. cbn [flat_map]. pose proof (told_tail _ _ T) as T'.
  destruct b as [|b0 b]; [exact (IH T')|]. cbn [own app]. constructor; [|exact (IH T')].
  intros C. apply in_flat_map in C as ([k' [b' l']] & Y & C). apply own_in in C as [Cb C]. injection C as _ C1 C2. subst k'.
  apply In_nth_error in Y as (n & Y). assert (S n = 0%nat); [|lia]. apply (T 0%nat (S n) k (b0 :: b) l b' l' eq_refl ltac:(discriminate) Y). exists []. now rewrite app_nil_r.
Qed.
Lemma eqb_comment_spec c d : eqb_comment c d = true <-> c = d.
Proof.
  destruct c as [[b a] k], d as [[b' a'] k']. unfold eqb_comment. change (match k, k' with Some k, Some k' => eqb_bytes k k' | None, None => true | _, _ => false end) with (eqb_key k k').
  rewrite !andb_true_iff, !eqb_bytes_spec, eqb_key_spec. split; [intros [[-> ->] ->]; reflexivity|intros [= -> -> ->]; auto].
Qed.
Lemma dedup_id l : NoDup l -> dedup l = l.
Proof.
  induction 1 as [|c l H _ IH]; [reflexivity|]. cbn [dedup]. rewrite IH. destruct l as [|d l]; [reflexivity|].
  destruct (eqb_comment c d) eqn:E; [|reflexivity]. apply eqb_comment_spec in E as ->. exfalso. apply H. now left.
Qed.
Lemma comments_perm its : anchored its -> Forall (fun i => comments (fst i) /\ shaped (snd i)) its ->
  Permutation (comments_of (file_lines its)) (flat_map own (keyed snd None its)).
Proof.
  intros A H. unfold comments_of. rewrite found_anchored by assumption. rewrite dedup_id; [apply sort_by_perm|].
  eapply Permutation_NoDup; [symmetry; apply sort_by_perm|]. apply own_nodup. intros n m k b l b' l' H1 H2 H3 H4. destruct (A n k b l H1 H2) as (_ & _ & U). eauto.
Qed.
Lemma filter_perm {A} (f : A -> bool) l l' : Permutation l l' -> Permutation (filter f l) (filter f l').
Proof. induction 1; cbn; [constructor| | |etransitivity; eauto]; repeat destruct (f _); auto; constructor. Qed.
Lemma filter_comments its k b l : anchored its -> Forall (fun i => comments (fst i) /\ shaped (snd i)) its -> In (k, (b, l)) (keyed snd None its) ->
  filter (matching k l) (comments_of (file_lines its)) = own (k, (b, l)).
Proof.
  intros A H I. pose proof (filter_perm (matching k l) _ _ (comments_perm its A H)) as P. rewrite (filter_own _ k b l) in P.
  - destruct (own (k, (b, l))) as [|c [|d r]] eqn:E; [now apply Permutation_nil, Permutation_sym|now apply Permutation_length_1_inv, Permutation_sym|]. cbn in E. now destruct b.
  - intros n m k' b' l' b'' l'' H1 H2 H3 H4. destruct (A n k' b' l' H1 H2) as (_ & _ & U). eauto.
  - exact I.
Qed.
Lemma before_line_eq cs k l : before_line cs k l = flat_map (fun c => ended (whitespace l ++ fst (fst c))) (filter (matching k l) cs).
Proof. induction cs as [|[[b a] k'] cs IH]; [reflexivity|]. cbn [before_line flat_map filter matching]. fold (before_line cs k l). rewrite IH. now destruct (_ && _). Qed.

(** ** Sorting moves whole keys and packages *)
Definition final (k : option bytes) (ls : list bytes) : option bytes := fold_left (fun k l => next_key k (trim l)) ls k.
Lemma keyed_app : forall a b k, keyed as_is k (a ++ b) = keyed as_is k a ++ keyed as_is (final k a) b.
Proof. induction a as [|x a IH]; intros b k; [reflexivity|]. cbn [app]. rewrite !keyed_cons. cbn [app]. rewrite IH. reflexivity. Qed.
Lemma final_app a b k : final k (a ++ b) = final (final k a) b.
Proof. apply fold_left_app. Qed.
Lemma flat_final {A} (f : A -> list bytes) l : Forall (fun x => final None (f x) = None) l -> final None (flat_map f l) = None.
Proof. induction 1 as [|x l H _ IH]; [reflexivity|]. cbn [flat_map]. now rewrite final_app, H. Qed.
Lemma flat_keyed {A} (f : A -> list bytes) l : Forall (fun x => final None (f x) = None) l ->
  keyed as_is None (flat_map f l) = flat_map (fun x => keyed as_is None (f x)) l.
Proof. induction 1 as [|x l H _ IH]; [reflexivity|]. cbn [flat_map]. now rewrite keyed_app, H, IH. Qed.
Definition neutral (t : bytes) : Prop := forall k, next_key k t = k.
Lemma fine_neutral r : fine r = true -> neutral (60 :: r).
Proof.
  unfold fine. rewrite !andb_true_iff, !negb_true_iff. intros [[_ H1] H2] k. unfold next_key.
  change (starts_with (bs "<Key") (60 :: r)) with (starts_with (bs "Key") r). change (starts_with (bs "</Key>") (60 :: r)) with (starts_with (bs "/Key>") r). now rewrite H1, H2.
Qed.
Lemma starts_with_app p a b : (length p <= length a)%nat -> starts_with p (a ++ b) = starts_with p a.
Proof. revert a. induction p as [|x p IH]; intros a H; [reflexivity|]. destruct a as [|y a]; cbn [length] in H; [lia|]. cbn [app starts_with]. rewrite IH by lia. reflexivity. Qed.
Lemma opening_neutral tag a v : In tag [bs "Package"; bs "Container"; bs "Project"] -> neutral (opening tag a v) /\ neutral (opening tag a v ++ closing tag) /\ neutral (closing tag).
Proof. intros [<-|[<-|[<-|[]]]]; (split; [|split]); intros k; reflexivity. Qed.
Lemma translated_neutral t : In (fst t) tags -> neutral (translated t).
Proof. destruct t as [t s]. cbn [fst]. intros H k. unfold translated. cbn [fst snd]. vm_compute in H. intuition subst; reflexivity. Qed.
Lemma final_neutral ls k : Forall (fun l => neutral (trim l)) ls -> final k ls = k.
Proof. intros H. revert k. induction H as [|l ls H _ IH]; intros k; [reflexivity|]. unfold final in *. cbn [fold_left]. now rewrite H. Qed.
Lemma key_final d k : translations k <> [] -> final None (key_lines d k) = None.
Proof.
  intros H. unfold key_lines. rewrite element_eq. destruct (map _ (translations k)) as [|x y] eqn:E; [now destruct (translations k)|]. rewrite <- E. clear E.
  change (final (next_key None (trim (indent d ++ opening (bs "Key") (bs "ID") (id k)))) (map (translation_line (S d)) (translations k) ++ [indent d ++ closing (bs "Key")]) = None).
  rewrite final_app, (final_neutral (map _ _)).
  - cbn [final fold_left]. unfold final. cbn [fold_left]. unfold indent. rewrite (trim_shaped _ (closing (bs "Key"))) by apply closing_body. reflexivity.
  - apply Forall_map, Forall_forall. intros t I. rewrite translation_line_eq. unfold indent. pose proof (translations_tags k t I) as T.
    rewrite trim_shaped by (apply translated_body, tag_hd, T). now apply translated_neutral.
Qed.
Lemma trim_indent d t : body t -> trim (indent d ++ t) = t.
Proof. apply trim_shaped. Qed.
Lemma element_keyed d tag a v inner : In tag [bs "Package"; bs "Container"; bs "Project"] -> final None inner = None ->
  final None (element d tag a v inner) = None /\
  keyed as_is None (element d tag a v inner) =
    match inner with [] => [(None, indent d ++ opening tag a v ++ closing tag)] | _ => (None, indent d ++ opening tag a v) :: keyed as_is None inner ++ [(None, indent d ++ closing tag)] end.
Proof.
  intros T F. assert (hd 0 tag <> 33) by (destruct T as [<-|[<-|[<-|[]]]]; discriminate). destruct (opening_neutral tag a v T) as (N1 & N2 & N3). rewrite element_eq. destruct inner as [|x y].
  - split; [|reflexivity]. unfold final. cbn [fold_left]. rewrite trim_indent by now apply both_body. apply N2.
  - split.
    + change (final (next_key None (trim (indent d ++ opening tag a v))) ((x :: y) ++ [indent d ++ closing tag]) = None). rewrite trim_indent by now apply opening_body. rewrite N1, final_app, F.
      unfold final. cbn [fold_left]. rewrite trim_indent by apply closing_body. apply N3.
    + rewrite keyed_cons. f_equal. rewrite trim_indent by now apply opening_body. rewrite N1, keyed_app, F. reflexivity.
Qed.
Lemma element_perm d tag a v i1 i2 : In tag [bs "Package"; bs "Container"; bs "Project"] -> final None i1 = None -> final None i2 = None ->
  Permutation (keyed as_is None i1) (keyed as_is None i2) -> Permutation (keyed as_is None (element d tag a v i1)) (keyed as_is None (element d tag a v i2)).
Proof.
  intros T F1 F2 P. rewrite (proj2 (element_keyed d tag a v i1 T F1)), (proj2 (element_keyed d tag a v i2 T F2)).
  destruct i1 as [|x1 y1], i2 as [|x2 y2]; [reflexivity|apply Permutation_nil in P; discriminate|apply Permutation_sym, Permutation_nil in P; discriminate|].
  constructor. now apply Permutation_app_tail.
Qed.
Lemma package_final : forall p d tag, In tag [bs "Package"; bs "Container"; bs "Project"] -> keys_all (fun k => translations k <> []) p ->
  final None (package_lines d tag p) = None.
Proof.
  induction p as [n ks cs IH] using package_ind'. intros d tag T H. inversion H as [? ? ? K C]; subst. cbn [package_lines]. apply element_keyed; [exact T|].
  rewrite final_app, flat_final.
  - apply flat_final. rewrite Forall_forall in *. intros q Q. apply IH; auto. vm_compute. auto.
  - eapply Forall_impl; [|exact K]. intros k. apply key_final.
Qed.
Lemma keys_all_sort P : forall p, keys_all P p -> keys_all P (sort_package p).
Proof.
  induction p as [n ks cs IH] using package_ind'. intros H. inversion H as [? ? ? K C]; subst. cbn [sort_package]. constructor.
  - eapply Permutation_Forall; [symmetry; apply sort_by_perm|exact K].
  - apply Forall_map. rewrite Forall_forall in *. auto.
Qed.
Lemma names_all_sort P : forall p, names_all P p -> names_all P (sort_package p).
Proof.
  induction p as [n ks cs IH] using package_ind'. intros H. inversion H as [? ? ? K C]; subst. cbn [sort_package]. constructor; [exact K|].
  apply Forall_map. rewrite Forall_forall in *. auto.
Qed.
Lemma one_lines_sort p : one_lines p -> one_lines (sort p).
Proof.
  intros (H1 & H2 & H3). unfold one_lines, sort. cbn [p_name packages]. split; [exact H1|].
  assert (P : Permutation (packages p) (sort_by name (packages p))) by (symmetry; apply sort_by_perm).
  split; apply Forall_map; (eapply Permutation_Forall; [exact P|]).
  - eapply Forall_impl; [|exact H2]. intros q. apply names_all_sort.
  - eapply Forall_impl; [|exact H3]. intros q. apply keys_all_sort.
Qed.
Lemma flat_perm {A B} (f g : A -> list B) l : Forall (fun x => Permutation (f x) (g x)) l -> Permutation (flat_map f l) (flat_map g l).
Proof. induction 1; cbn [flat_map]; [constructor|]. now apply Permutation_app. Qed.
Lemma perm_flat {A B} (f : A -> list B) l l' : Permutation l l' -> Permutation (flat_map f l) (flat_map f l').
Proof.
  induction 1; cbn [flat_map]; [constructor|now apply Permutation_app_head| |etransitivity; eauto].
  rewrite !app_assoc. apply Permutation_app_tail, Permutation_app_comm.
Qed.
Lemma flat_map_map {A B C} (f : A -> B) (g : B -> list C) l : flat_map g (map f l) = flat_map (fun x => g (f x)) l.
Proof. induction l; [reflexivity|]. cbn. now f_equal. Qed.
Lemma package_perm : forall p d tag, In tag [bs "Package"; bs "Container"; bs "Project"] -> keys_all (fun k => translations k <> []) p ->
  Permutation (keyed as_is None (package_lines d tag (sort_package p))) (keyed as_is None (package_lines d tag p)).
Proof.
  induction p as [n ks cs IH] using package_ind'. intros d tag T H. inversion H as [? ? ? K C]; subst. cbn [sort_package package_lines].
  assert (Tc : In (bs "Container") [bs "Package"; bs "Container"; bs "Project"]) by (vm_compute; auto).
  assert (K' : Forall (fun k => translations k <> []) (sort_by id ks)) by (eapply Permutation_Forall; [symmetry; apply sort_by_perm|exact K]).
  assert (C' : Forall (keys_all (fun k => translations k <> [])) (map sort_package cs)) by (apply Forall_map; eapply Forall_impl; [|exact C]; intros q; apply keys_all_sort).
  assert (FK : forall l, Forall (fun k => translations k <> []) l -> Forall (fun x => final None (key_lines (S d) x) = None) l) by (intros l L; eapply Forall_impl; [|exact L]; intros k; apply key_final).
  assert (FC : forall l, Forall (keys_all (fun k => translations k <> [])) l -> Forall (fun x => final None (package_lines (S d) (bs "Container") x) = None) l) by (intros l L; eapply Forall_impl; [|exact L]; intros q; now apply package_final).
  apply element_perm; [exact T|rewrite final_app, flat_final by auto; apply flat_final; auto|rewrite final_app, flat_final by auto; apply flat_final; auto|].
  rewrite !keyed_app, !(flat_final (key_lines (S d))), !flat_keyed by auto. apply Permutation_app.
  - apply perm_flat, sort_by_perm.
  - rewrite flat_map_map. apply flat_perm. rewrite Forall_forall in *. auto.
Qed.
Lemma project_perm p : no_empty_key p -> Permutation (keyed as_is None (project_lines (sort p))) (keyed as_is None (project_lines p)).
Proof.
  intros H. unfold project_lines, sort. cbn [p_name packages]. unfold no_empty_key in H.
  assert (Tp : In (bs "Package") [bs "Package"; bs "Container"; bs "Project"]) by (vm_compute; auto).
  assert (S : Permutation (sort_by name (packages p)) (packages p)) by apply sort_by_perm.
  assert (H' : Forall (keys_all (fun k => translations k <> [])) (sort_by name (packages p))) by (eapply Permutation_Forall; [symmetry; exact S|exact H]).
  assert (F : forall l, Forall (keys_all (fun k => translations k <> [])) l -> Forall (fun x => final None (package_lines 1 (bs "Package") x) = None) l) by (intros l L; eapply Forall_impl; [|exact L]; intros q; now apply package_final).
  assert (M : Forall (keys_all (fun k => translations k <> [])) (map sort_package (sort_by name (packages p)))) by (apply Forall_map; eapply Forall_impl; [|exact H']; intros q; apply keys_all_sort).
  apply element_perm; [vm_compute; auto|apply flat_final; auto|apply flat_final; auto|].
  rewrite !flat_keyed by auto. rewrite flat_map_map. etransitivity; [apply flat_perm|apply perm_flat, S].
  rewrite Forall_forall in *. intros q Q. apply package_perm; auto.
Qed.

(** ** Comments that are laid out again *)
Definition blank (w : bytes) : Prop := Forall (fun c => is_ws c = true) w.
Lemma trim_start_blank w s : blank w -> trim_start (w ++ s) = trim_start s.
Proof. induction 1 as [|c w H _ IH]; [reflexivity|]. cbn [app trim_start]. now rewrite H. Qed.
Lemma trim_unique w1 t w2 : blank w1 -> blank w2 -> trimmed t -> trim (w1 ++ t ++ w2) = t.
Proof.
  intros H1 H2 [T1 T2]. unfold trim. rewrite trim_start_blank by exact H1. destruct t as [|c t].
  - cbn [app]. rewrite <- (app_nil_r w2), trim_start_blank by exact H2. reflexivity.
  - rewrite trim_start_nows by (intros x r E; injection E as <- _; exact (T1 c t eq_refl)). unfold trim_end. rewrite rev_app_distr, trim_start_blank by (now apply Forall_rev).
    rewrite trim_start_nows; [apply rev_involutive|]. intros x r E. apply (T2 x (rev r)). apply (f_equal (@rev N)) in E. rewrite rev_involutive in E. exact E.
Qed.
Lemma trim_blank w s : blank w -> trim (w ++ s) = trim s.
Proof. intros H. unfold trim. now rewrite trim_start_blank. Qed.
Lemma trim_trim s : trim (trim s) = trim s.
Proof. apply trim_fixed, trim_trimmed. Qed.
Lemma trim_start_in c s : In c (trim_start s) -> In c s.
Proof. destruct (trim_start_suffix s) as (w & E & _). intros H. rewrite E. apply in_or_app. now right. Qed.
Lemma trim_end_in c s : In c (trim_end s) -> In c s.
Proof. destruct (trim_end_spec s) as (w & E & _). intros H. rewrite E. apply in_or_app. now left. Qed.
Lemma trim_trim_start s : trim (trim_start s) = trim s.
Proof. destruct (trim_start_suffix s) as (w & E & B). rewrite E at 2. symmetry. now apply trim_blank. Qed.
Lemma trim_trim_end s : trim (trim_end s) = trim s.
Proof.
  destruct (trim_end_spec s) as (w & E & B). destruct (trim_decompose (trim_end s)) as (w1 & w2 & E' & B1 & B2).
  rewrite E at 2. rewrite E' at 2. rewrite <- !app_assoc. symmetry. apply trim_unique; [exact B1| |apply trim_trimmed]. now apply Forall_app.
Qed.
Lemma replace_first x x' r : comments (x :: r) -> plain x' -> trim x' = trim x -> comments (x' :: r).
Proof.
  intros H P T. inversion H as [|c b O C E]; subst. destruct O as [l P1 O1 C1|l m z P1 O1 C1 M P2 O2 C2 K1 K2]; cbn [app] in E; injection E as -> <-.
  - apply (more_comments [x'] b); [|exact C]. constructor; [exact P|unfold opens in *; now rewrite T|unfold closes in *; now rewrite T].
  - apply (more_comments (x' :: m ++ [z]) b); [|exact C]. constructor; auto; [unfold opens in *; now rewrite T|unfold closes in *; now rewrite T].
Qed.
Lemma replace_last : forall b, comments b -> forall r z z', b = r ++ [z] -> plain z' -> trim z' = trim z -> comments (r ++ [z']).
Proof.
  induction 1 as [|c d O C IH]; intros r z z' E P T; [now destruct r|]. destruct d as [|y d _] using rev_ind.
  - rewrite app_nil_r in E. rewrite <- (app_nil_r (r ++ [z'])). apply more_comments; [|constructor].
    destruct O as [l P1 O1 C1|l m y P1 O1 C1 M P2 O2 C2 K1 K2].
    + destruct r as [|? [|]]; try discriminate. injection E as ->. constructor; [exact P|unfold opens in *; now rewrite T|unfold closes in *; now rewrite T].
    + change (l :: m ++ [y]) with ((l :: m) ++ [y]) in E. apply app_inj_tail in E as [<- ->]. cbn [app]. constructor; auto; unfold opens, closes in *; now rewrite T.
  - rewrite app_assoc in E. apply app_inj_tail in E as [<- <-]. rewrite <- app_assoc. apply more_comments; [exact O|]. now apply (IH d y).
Qed.
Lemma comments_plain b : comments b -> Forall plain b.
Proof.
  induction 1 as [|c d O _ IH]; [constructor|]. apply Forall_app. split; [|exact IH]. destruct O as [l P1 _ _|l m z P1 _ _ M P2 _ _ _ _]; [now constructor|].
  constructor; [exact P1|]. apply Forall_app. split; [|now constructor]. eapply Forall_impl; [|exact M]. now intros x (? & _).
Qed.
Lemma comments_first x r : comments (x :: r) -> opens x.
Proof. intros H. inversion H as [|c b O C E]; subst. destruct (one_comment_first c O) as (l & r' & -> & L). now injection E as -> _. Qed.
Lemma comments_last : forall b, comments b -> forall r z, b = r ++ [z] -> closes z.
Proof.
  induction 1 as [|c d O C IH]; intros r z E; [now destruct r|]. destruct d as [|y d _] using rev_ind.
  - rewrite app_nil_r in E. destruct O as [l P1 O1 C1|l m y P1 O1 C1 M P2 O2 C2 K1 K2].
    + destruct r as [|? [|]]; try discriminate. now injection E as ->.
    + change (l :: m ++ [y]) with ((l :: m) ++ [y]) in E. now apply app_inj_tail in E as [_ ->].
  - rewrite app_assoc in E. apply app_inj_tail in E as [_ <-]. now apply (IH d).
Qed.
Lemma join_ends x m z : exists M, forall x' z' : bytes, join [10] (x' :: m ++ [z']) = x' ++ M ++ z' /\ join [10] (x :: m ++ [z]) = x ++ M ++ z.
Proof.
  destruct m as [|y m].
  - exists [10]. intros x' z'. split; reflexivity.
  - exists ([10] ++ join [10] (y :: m) ++ [10]). assert (E : forall x' z' : bytes, join [10] (x' :: (y :: m) ++ [z']) = x' ++ ([10] ++ join [10] (y :: m) ++ [10]) ++ z').
    { intros x' z'. cbn [app]. rewrite join_cons2. change (y :: m ++ [z']) with ((y :: m) ++ [z']). rewrite join_app by discriminate. cbn [app]. rewrite <- !app_assoc. reflexivity. }
    intros x' z'. split; apply E.
Qed.
Lemma laid_again b w : comments b -> b <> [] -> Forall (fun c => c = 32) w -> exists b', b' <> [] /\ comments b' /\ join [10] b' = w ++ trim (join [10] b).
Proof.
  intros C Ne W. assert (Wb : blank w) by (eapply Forall_impl; [|exact W]; now intros c ->). assert (Wp : plain w) by (rewrite Forall_forall in W; split; intros I; now apply W in I).
  pose proof (comments_plain b C) as P. destruct b as [|x b]; [contradiction|]. destruct b as [|z m _] using rev_ind.
  - exists [w ++ trim x]. split; [discriminate|]. split; [|reflexivity]. inversion P as [|? ? [P1 P2] _]; subst. apply (replace_first x); [exact C| |now rewrite trim_blank, trim_trim].
    destruct Wp. split; rewrite in_app_iff; intros [I|I]; auto; apply trim_in in I; auto.
  - inversion P as [|? ? [P1 P2] P']; subst. apply Forall_app in P' as [_ P']. inversion P' as [|? ? [P3 P4] _]; subst.
    pose proof (comments_first _ _ C) as (r & O). pose proof (comments_last _ C (x :: m) z eq_refl) as (r' & O').
    exists ((w ++ trim_start x) :: m ++ [trim_end z]). split; [discriminate|]. split.
    + apply (replace_last ((w ++ trim_start x) :: m ++ [z])) with (r := (w ++ trim_start x) :: m) (z := z); [|reflexivity| |apply trim_trim_end].
      * apply (replace_first x); [exact C| |now rewrite trim_blank, trim_trim_start]. destruct Wp. split; rewrite in_app_iff; intros [I|I]; auto; apply trim_start_in in I; auto.
      * split; intros I; apply trim_end_in in I; auto.
    + destruct (join_ends x m z) as (M & E). destruct (E (w ++ trim_start x) (trim_end z)) as [E1 E2]. rewrite E1, E2, <- app_assoc. f_equal.
      destruct (trim_start_suffix x) as (w1 & X & B1). destruct (trim_end_spec z) as (w2 & Z & B2). rewrite X at 2. rewrite Z at 2.
      replace ((w1 ++ trim_start x) ++ M ++ trim_end z ++ w2) with (w1 ++ (trim_start x ++ M ++ trim_end z) ++ w2) by (now rewrite <- !app_assoc).
      symmetry. apply trim_unique; [exact B1|exact B2|]. split.
      * intros c s Hd. destruct (trim_start x) as [|c' s'] eqn:Ts; [unfold trim in O; rewrite Ts in O; discriminate|]. injection Hd as <- _. now apply trim_start_idem_hd in Ts.
      * intros c s Hl. assert (Nz : trim_end z <> []) by (intros Te; rewrite <- trim_trim_end, Te in O'; destruct r'; discriminate).
        destruct (exists_last Nz) as (s' & c' & Te). rewrite Te, !app_assoc in Hl. apply app_inj_tail in Hl as [_ <-]. now apply trim_end_last in Te.
Qed.
Definition relay (b : list bytes) (l : bytes) : list bytes := match b with [] => [] | _ => split_on 10 (whitespace l ++ trim (join [10] b)) end.
Lemma split_join : forall b, b <> [] -> Forall plain b -> split_on 10 (join [10] b) = b.
Proof.
  induction b as [|x b IH]; intros Ne P; [contradiction|]. inversion P as [|? ? [P1 _] P']; subst. destruct b as [|y b]; [now apply split_on_none|].
  rewrite join_cons2. cbn [app]. rewrite split_on_app by exact P1. now rewrite IH.
Qed.
Lemma whitespace_blank l : shaped l -> exists w, blanks_of l w /\ whitespace l = w ++ (if starts_with (bs "</") (trim l) then bs "    " else []) /\ Forall (fun c => c = 32) (whitespace l).
Proof.
  intros (n & t & -> & B). exists (repeat 32 n). assert (R : Forall (fun c => c = 32) (repeat 32 n)) by (apply Forall_forall; intros c; apply repeat_32).
  split; [|split].
  - constructor; [exact R|]. intros r ->. destruct B as (c & E & _). discriminate.
  - unfold whitespace. now rewrite leading_shaped.
  - unfold whitespace. rewrite leading_shaped by exact B. apply Forall_app. split; [exact R|]. destruct (starts_with _ _); [|constructor]. repeat constructor.
Qed.
Lemma relay_spec b l : comments b -> shaped l -> comments (relay b l) /\ (relay b l = [] <-> b = []) /\ neat_item (relay b l, l) /\ trim (join [10] (relay b l)) = trim (join [10] b) /\
  flat_map ended (relay b l) = match b with [] => [] | _ => ended (whitespace l ++ trim (join [10] b)) end.
Proof.
  intros C S. destruct b as [|x b]; [split; [constructor|]; split; [tauto|]; split; [now left|now split]|].
  destruct (whitespace_blank l S) as (w & B & E & F). destruct (laid_again (x :: b) (whitespace l) C ltac:(discriminate) F) as (b' & Ne & C' & J).
  assert (R : relay (x :: b) l = b'). { unfold relay. rewrite <- J. apply split_join; [exact Ne|now apply comments_plain]. }
  assert (T : trim (join [10] b') = trim (join [10] (x :: b))). { rewrite J, trim_blank, trim_trim; [reflexivity|]. eapply Forall_impl; [|exact F]. now intros c ->. }
  rewrite R. split; [exact C'|]. split; [split; [intros X; now apply Ne in X|discriminate]|]. split; [|split; [exact T|]].
  - right. cbn [fst snd]. exists w. split; [exact B|]. rewrite T, J, E, <- app_assoc. reflexivity.
  - rewrite <- J. clear -Ne. unfold ended. induction b' as [|y r IH]; [contradiction|]. destruct r as [|z r]; [cbn; now rewrite app_nil_r|].
    cbn [flat_map]. cbn [flat_map] in IH. rewrite IH by discriminate. rewrite join_cons2, <- !app_assoc. reflexivity.
Qed.
Lemma relay_neat b l : comments b -> shaped l -> neat_item (b, l) -> relay b l = b.
Proof.
  intros C S [E|(w & B & E)]; cbn [fst snd] in *; [subst; reflexivity|]. destruct b as [|x b]; [reflexivity|]. destruct (whitespace_blank l S) as (w' & B' & E' & _).
  assert (w' = w) as ->.
  { clear -B B'. inversion B as [v t F H Ev Ew]; subst. inversion B' as [v' t' F' H' Ev' Ew']; subst. clear B B'. revert w' F' Ev'. induction F as [|c v -> F IH]; intros w' F' Ev'.
    - destruct F' as [|c v' -> F']; [reflexivity|]. cbn in Ev'. symmetry in Ev'. now apply H in Ev'.
    - destruct F' as [|c v' -> F']; [cbn in Ev'; now apply H' in Ev'|]. f_equal. apply IH; [exact F'|]. now injection Ev'. }
  unfold relay. rewrite E', <- app_assoc, <- E. apply split_join; [discriminate|now apply comments_plain].
Qed.

(** ** The file that is written *)
Definition block (cs : list comment) (x : option bytes * bytes) : list bytes := flat_map (fun c => split_on 10 (whitespace (snd x) ++ fst (fst c))) (filter (matching (fst x) (snd x)) cs).
Definition with_block (cs : list comment) (x : option bytes * bytes) : entry := (fst x, (block cs x, snd x)).
Lemma keyed_blocks (f : option bytes * bytes -> list bytes) : forall R k, keyed snd k (map (fun x => (f x, snd x)) (keyed as_is k R)) = map (fun x => (fst x, (f x, snd x))) (keyed as_is k R).
Proof. induction R as [|l R IH]; intros k; [reflexivity|]. rewrite keyed_cons. cbn [map]. rewrite keyed_cons. cbn [fst snd]. now rewrite IH. Qed.
Definition bare (e : entry) : option bytes * bytes := (fst e, snd (snd e)).
Lemma keyed_bare its k : keyed as_is k (map snd its) = map bare (keyed snd k its).
Proof. rewrite keyed_map. reflexivity. Qed.
Lemma keyed_in {A} (line : A -> bytes) l k x : In x (keyed line k l) -> In (snd x) l.
Proof. intros H. apply (in_map snd) in H. now rewrite keyed_snd in H. Qed.
Definition sound (its : list item) : Prop := Forall (fun i => comments (fst i) /\ shaped (snd i)) its.
Lemma block_relay its k b l : anchored its -> sound its -> In (k, (b, l)) (keyed snd None its) -> block (comments_of (file_lines its)) (k, l) = relay b l.
Proof.
  intros A S I. unfold block. cbn [fst snd]. rewrite (filter_comments its k b l A S I). cbn [own]. destruct b; [reflexivity|]. cbn [flat_map fst]. now rewrite app_nil_r.
Qed.
Lemma perm_anchored its its' (g : entry -> entry) : Permutation (keyed snd None its') (map g (keyed snd None its)) ->
  (forall e, In e (keyed snd None its) -> bare (g e) = bare e /\ (fst (snd (g e)) = [] <-> fst (snd e) = [])) -> anchored its -> anchored its'.
Proof.
  intros P G A. apply Permutation_sym, Permutation_nth_error in P as (L & f & Inj & F). intros n k b l H Ne.
  assert (Z : forall m k b l, nth_error (keyed snd None its') m = Some (k, (b, l)) -> exists b0, nth_error (keyed snd None its) (f m) = Some (k, (b0, l)) /\ (b = [] <-> b0 = [])).
  { intros m k1 b1 l1 M. rewrite F, nth_error_map in M. destruct (nth_error (keyed snd None its) (f m)) as [e|] eqn:E; [|discriminate]. cbn [option_map] in M. injection M as M.
    destruct (G e (nth_error_In _ _ E)) as [G1 G2]. rewrite M in G1, G2. destruct e as [k2 [b2 l2]]. unfold bare in G1. cbn [fst snd] in G1, G2. injection G1 as -> ->. eauto. }
  destruct (Z n k b l H) as (b0 & H0 & E0). assert (Ne0 : b0 <> []) by tauto. destruct (A (f n) k b0 l H0 Ne0) as (A1 & A2 & A3). split; [exact A1|]. split; [exact A2|].
  intros m b' l' M X. destruct (Z m k b' l' M) as (b1 & H1 & _). apply Inj. exact (A3 (f m) b1 l' H1 X).
Qed.
Definition again (e : entry) : entry := (fst e, (relay (fst (snd e)) (snd (snd e)), snd (snd e))).
Lemma sound_of its p : lays_out its p -> Forall (fun i => comments (fst i)) its -> sound its.
Proof.
  intros L C. unfold sound. pose proof (project_lines_shaped p) as S. rewrite <- L in S. rewrite Forall_map in S. rewrite Forall_forall in *. auto.
Qed.
Lemma written_file its p q : lays_out its p -> Forall (fun i => comments (fst i)) its -> anchored its -> one_lines q ->
  Permutation (keyed as_is None (project_lines q)) (keyed as_is None (project_lines p)) ->
  exists its', to_writer q (comments_of (file_lines its)) = file_of its' /\ lays_out its' q /\ Forall (fun i => comments (fst i)) its' /\ anchored its' /\ neat its' /\
    Permutation (keyed snd None its') (map again (keyed snd None its)) /\ (project_lines q = project_lines p -> keyed snd None its' = map again (keyed snd None its)).
Proof.
  intros L C A Q P. pose proof (sound_of its p L C) as S. set (cs := comments_of (file_lines its)).
  set (K' := keyed as_is None (project_lines q)) in *. set (its' := map (fun x => (block cs x, snd x)) K').
  rewrite <- L, keyed_bare in P.
  assert (Bl : forall e, In e (keyed snd None its) -> block cs (bare e) = relay (fst (snd e)) (snd (snd e))) by (intros [k [b l]] I; exact (block_relay its k b l A S I)).
  assert (Sd : forall e, In e (keyed snd None its) -> comments (fst (snd e)) /\ shaped (snd (snd e))) by (intros e I; apply keyed_in in I; unfold sound in S; rewrite Forall_forall in S; exact (S _ I)).
  assert (Ag : map (with_block cs) (map bare (keyed snd None its)) = map again (keyed snd None its)).
  { rewrite map_map. apply map_ext_in. intros e I. unfold with_block, again. rewrite (Bl e I). reflexivity. }
  assert (Ke : keyed snd None its' = map (with_block cs) K') by (unfold its', K'; rewrite keyed_blocks; reflexivity).
  assert (Pe : Permutation (keyed snd None its') (map again (keyed snd None its))) by (rewrite Ke, <- Ag; now apply Permutation_map).
  assert (In' : forall x, In x K' -> exists e, In e (keyed snd None its) /\ bare e = x) by (intros x I; apply (Permutation_in x P) in I; apply in_map_iff in I as (e & E & I); eauto).
  assert (Lq : lays_out its' q) by (unfold lays_out, its'; rewrite map_map; cbn [snd]; apply keyed_snd).
  exists its'. split; [|split; [exact Lq|split; [|split; [|split; [|split; [exact Pe|]]]]]].
  - rewrite to_writer_eq by exact Q. unfold file_of, file_lines. cbn [flat_map]. f_equal. fold K'. unfold its'. rewrite flat_map_map. cbn [fst snd].
    clear -In' Bl Sd S A. induction K' as [|x l IH]; [reflexivity|]. cbn [flat_map]. rewrite IH by (intros y Y; apply In'; now right). rewrite flat_map_app. f_equal.
    rewrite flat_map_app. cbn [flat_map]. rewrite app_nil_r. f_equal. destruct (In' x (or_introl eq_refl)) as ([k [b t]] & I & <-).
    rewrite (Bl _ I). cbn [fst snd bare]. destruct (Sd _ I) as [C1 S1]. cbn [fst snd] in C1, S1. destruct (relay_spec b t C1 S1) as (_ & _ & _ & _ & ->).
    pose proof (filter_comments its k b t A S I) as FC. fold cs in FC. rewrite before_line_eq. unfold bare. cbn [fst snd]. rewrite FC. cbn [own]. destruct b; [reflexivity|]. cbn [flat_map fst]. apply app_nil_r.
  - apply Forall_forall. intros i I. unfold its' in I. apply in_map_iff in I as (x & <- & I). destruct (In' x I) as (e & E & <-). cbn [fst]. rewrite (Bl e E).
    destruct (Sd e E) as [C1 S1]. now apply relay_spec.
  - apply (perm_anchored its its' again Pe); [|exact A]. intros e E. split; [reflexivity|]. unfold again. cbn [fst snd]. destruct (Sd e E) as [C1 S1]. now apply relay_spec.
  - apply Forall_forall. intros i I. unfold its' in I. apply in_map_iff in I as (x & <- & I). destruct (In' x I) as (e & E & <-). rewrite (Bl e E).
    destruct (Sd e E) as [C1 S1]. now apply relay_spec.
  - intros Eq. rewrite Ke. unfold K'. rewrite Eq, <- L, keyed_bare. exact Ag.
Qed.
Lemma file_lines_well its p : lays_out its p -> Forall (fun i => comments (fst i)) its -> one_lines p -> lines (file_of its) = file_lines its.
Proof.
  intros L C O. apply lines_ended. unfold file_lines. constructor.
  - split; [vm_compute; intuition discriminate|]. intros r E. apply (f_equal (fun s => last s 0)) in E. rewrite last_last in E. vm_compute in E. discriminate.
  - apply Forall_flat_map. pose proof (sound_of its p L C) as S. pose proof (project_lines_line p O) as W. rewrite <- L in W. rewrite Forall_map in W. unfold sound in S. rewrite Forall_forall in *. intros i I.
    apply Forall_app. destruct (S i I) as [C1 S1]. split.
    + eapply Forall_impl; [|apply comments_plain, C1]. intros l. apply plain_well.
    + constructor; [|constructor]. apply shaped_well; [now apply unp_shaped|]. intros X. apply unp_in in X. now apply (W i I).
Qed.
Lemma again_neat its p : lays_out its p -> Forall (fun i => comments (fst i)) its -> neat its -> map again (keyed snd None its) = keyed snd None its.
Proof.
  intros L C Ne. rewrite <- (map_id (keyed snd None its)) at 2. apply map_ext_in. intros [k [b l]] I. apply keyed_in in I. cbn [snd] in I. pose proof (sound_of its p L C) as S. unfold sound, neat in *.
  rewrite Forall_forall in *. destruct (S _ I) as [C1 S1]. unfold again. cbn [fst snd] in *. rewrite relay_neat; auto.
Qed.
Lemma again_above its p : lays_out its p -> Forall (fun i => comments (fst i)) its -> map above (map again (keyed snd None its)) = map above (keyed snd None its).
Proof.
  intros L C. rewrite map_map. apply map_ext_in. intros [k [b l]] I. apply keyed_in in I. cbn [snd] in I. pose proof (sound_of its p L C) as S. unfold sound in *.
  rewrite Forall_forall in *. destruct (S _ I) as [C1 S1]. unfold again, above. cbn [fst snd] in *. destruct (relay_spec b l C1 S1) as (_ & _ & _ & -> & _). reflexivity.
Qed.
