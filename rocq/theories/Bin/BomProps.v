(** C101: byte order marks. *)
From Coq Require Import String.
From Verif Require Import Base.Tactics Base.Bytes Base.Ascii Base.Text Base.Sort Bin.BomModel Bin.BomSpec.
Local Open Scope N_scope.
Local Open Scope list_scope.

Lemma has_part_spec s w : has_part s w = true <-> contains_text s w.
Proof.
  induction s as [|c s IH]; cbn [has_part]; rewrite orb_true_iff, starts_with_spec.
  - split; [intros [(r & ->)|]; [exists [], r; reflexivity|discriminate]|]. intros ([|] & b & E); [left; exists b; exact E|discriminate E].
  - rewrite IH. split.
    + intros [(r & E)|(a & b & ->)]; [exists [], r; exact E|exists (c :: a), b; reflexivity].
    + intros ([|x a] & b & E); [left; exists b; exact E|]. cbn [app] in E. injection E as <- ->. right. exists a, b. reflexivity.
Qed.
(** The last dot. *)
Lemma last_dot s : (~ In 46 s) \/ exists a b, s = a ++ 46 :: b /\ ~ In 46 b.
Proof.
  induction s as [|c s [IH|(a & b & -> & Nb)]]; [left; intros []| |right; exists (c :: a), b; auto].
  destruct (N.eqb_spec c 46) as [->|NE]; [right; exists [], s; auto|left; intros [|]; [congruence|contradiction]].
Qed.
Lemma extension_none rest : ~ In 46 rest -> forall stem found, extension_from stem rest found = found.
Proof.
  induction rest as [|c r IH]; intros Nr stem found; [reflexivity|]. cbn [extension_from]. rewrite IH by (intros I; apply Nr; now right). destruct (N.eqb_spec c 46) as [->|]; [exfalso; apply Nr; now left|reflexivity].
Qed.
Lemma extension_dot a : forall b stem found, ~ In 46 b -> extension_from stem (a ++ 46 :: b) found = match stem ++ a with [] => None | _ => Some b end.
Proof.
  induction a as [|c a IH]; intros b stem found Nb; cbn [app extension_from].
  - change (46 =? 46) with true. cbn iota. rewrite extension_none by exact Nb. rewrite app_nil_r. reflexivity.
  - rewrite IH by exact Nb. rewrite <- app_assoc. reflexivity.
Qed.
Lemma dot_unique a b c d : ~ In 46 b -> ~ In 46 d -> a ++ 46 :: b = c ++ 46 :: d -> a = c /\ b = d.
Proof.
  revert c. induction a as [|x a IH]; intros [|y c] Nb Nd E; cbn [app] in E.
  - injection E as ->. auto.
  - injection E as <- ->. exfalso. apply Nb. apply in_or_app. right. now left.
  - injection E as -> <-. exfalso. apply Nd. apply in_or_app. right. now left.
  - injection E as -> E. destruct (IH c Nb Nd E) as (-> & ->). auto.
Qed.
Lemma extension_spec name e : extension name = Some e <-> has_extension name e.
Proof.
  unfold extension, has_extension. change (bs ".") with [46]. destruct (last_dot name) as [Nn|(a & b & -> & Nb)].
  - rewrite extension_none by exact Nn. split; [discriminate|]. intros (st & _ & -> & _). exfalso. apply Nn. apply in_or_app. right. now left.
  - rewrite extension_dot by exact Nb. cbn [app]. split.
    + destruct a as [|x a]; [discriminate|]. intros [= <-]. exists (x :: a). split; [discriminate|]. auto.
    + intros (st & Ns & E & Ne). cbn [app] in E. destruct (dot_unique _ _ _ _ Nb Ne E) as (-> & ->). destruct st; [congruence|reflexivity].
Qed.
Lemma to_check_spec root f : (to_check root f = true /\ (in_folder (bs "addons") f = true \/ in_folder (bs "optionals") f = true)) <-> looked_at root (names f).
Proof.
  unfold to_check, looked_at, in_folder. rewrite andb_true_iff, negb_true_iff. fold (relative f).
  assert (A : has_part (root ++ relative f) (bs ".hemttout") = false <-> ~ contains_text (root ++ relative f) (bs ".hemttout")) by (rewrite <- has_part_spec, not_true_iff_false; tauto).
  rewrite A. assert (B : match extension (last (names f) []) with Some e => negb (existsb (eqb_bytes e) ignored) | None => false end = true <-> exists e, has_extension (last (names f) []) e /\ ~ In e ignored).
  { split.
    - destruct (extension (last (names f) [])) as [e|] eqn:E; [|discriminate]. intros X. exists e. split; [now apply extension_spec|]. apply negb_true_iff in X. intros I. rewrite <- not_true_iff_false in X. apply X. apply existsb_exists. exists e. split; [exact I|apply eqb_bytes_refl].
    - intros (e & E & Ne). apply extension_spec in E. rewrite E. apply negb_true_iff. apply not_true_iff_false. intros X. apply existsb_exists in X as (y & I & Ey). apply eqb_bytes_spec in Ey as ->. contradiction. }
  rewrite B. assert (C : forall w, match names f with n :: _ :: _ => eqb_bytes n w | _ => false end = true <-> exists rest, rest <> [] /\ names f = w :: rest).
  { intros w. destruct (names f) as [|n [|m r]].
    - split; [discriminate|intros (rest & _ & E); discriminate E].
    - split; [discriminate|intros (rest & N1 & E); injection E as _ <-; congruence].
    - rewrite eqb_bytes_spec. split; [intros ->; exists (m :: r); split; [discriminate|reflexivity]|intros (rest & _ & E); injection E; auto]. }
  rewrite !C. unfold ignored. split.
  - intros ((X & Y) & [(r & N1 & E)|(r & N1 & E)]); (split; [exists r; auto|auto]).
  - intros ((r & N1 & [E|E]) & X & Y); (split; [auto|]); [left|right]; exists r; auto.
Qed.
Lemma marked_spec fs :
  match marked fs with
  | IoError => exists f, In f fs /\ data f = None
  | Report l => (forall f, In f fs -> data f <> None) /\ l = map relative (filter (fun f => match data f with Some d => if (length d <? 3)%nat then false else eqb_bytes (firstn 3 d) [239; 187; 191] | None => false end) fs)
  end.
Proof.
  induction fs as [|f fs IH]; cbn [marked]; [split; [intros f []|reflexivity]|]. destruct (data f) as [d|] eqn:E; [|exists f; split; [now left|exact E]].
  destruct (marked fs) as [l|]; [|destruct IH as (g & I & Eg); exists g; split; [now right|exact Eg]]. destruct IH as (A & ->). split.
  - intros g [<-|I]; [congruence|now apply A].
  - cbn [filter]. rewrite E. destruct (if (length d <? 3)%nat then false else eqb_bytes (firstn 3 d) [239; 187; 191]); reflexivity.
Qed.
Lemma mark_spec d : (if (length d <? 3)%nat then false else eqb_bytes (firstn 3 d) [239; 187; 191]) = true <-> begins_with_mark d.
Proof.
  unfold begins_with_mark. destruct d as [|a [|b [|c r]]]; try (split; [discriminate|intros (x & E); discriminate E]). cbn [length firstn].
  change ((S (S (S (length r))) <? 3)%nat) with false. cbn iota. rewrite eqb_bytes_spec. split; [intros E; exists r; cbn [app]; congruence|]. intros (x & E). cbn [app] in E. congruence.
Qed.
Lemma chosen root files f : In f (flat_map (fun folder => filter (to_check root) (filter (in_folder folder) files)) [bs "addons"; bs "optionals"]) <-> In f files /\ looked_at root (names f).
Proof.
  rewrite in_flat_map, <- to_check_spec. split.
  - intros (w & Iw & I). apply filter_In in I as (I & Tc). apply filter_In in I as (I & Fo). split; [exact I|]. split; [exact Tc|]. destruct Iw as [<-|[<-|[]]]; auto.
  - intros (I & Tc & [Fo|Fo]); [exists (bs "addons")|exists (bs "optionals")]; (split; [cbn [In]; auto|]); apply filter_In; (split; [apply filter_In; auto|exact Tc]).
Qed.
(** A file is reported just if it is looked at and begins with a mark. *)
Theorem C101_exact : forall root files l, check root files = Report l -> forall p, In p l <->
  exists f d, In f files /\ looked_at root (names f) /\ data f = Some d /\ begins_with_mark d /\ p = flat_map (fun n => 47 :: n) (names f).
Proof.
  intros root files l E p. pose proof (marked_spec (flat_map (fun folder => filter (to_check root) (filter (in_folder folder) files)) [bs "addons"; bs "optionals"])) as M. unfold check in E. rewrite E in M. destruct M as (_ & ->).
  rewrite in_map_iff. split.
  - intros (f & <- & I). apply filter_In in I as (I & Mk). apply chosen in I as (I & Lk). destruct (data f) as [d|] eqn:Ed; [|discriminate Mk]. exists f, d. apply mark_spec in Mk. auto.
  - intros (f & d & I & Lk & Ed & Mk & ->). exists f. split; [reflexivity|]. apply filter_In. split; [now apply chosen|]. rewrite Ed. now apply mark_spec.
Qed.
(** No file is reported twice. *)
Theorem C101_once : forall root files l, NoDup (map (fun f => flat_map (fun n => 47 :: n) (names f)) files) -> check root files = Report l -> NoDup l.
Proof.
  intros root files l Nd E. pose proof (marked_spec (flat_map (fun folder => filter (to_check root) (filter (in_folder folder) files)) [bs "addons"; bs "optionals"])) as M. unfold check in E. rewrite E in M. destruct M as (_ & ->). change (fun f => flat_map (fun n => 47 :: n) (names f)) with relative in Nd.
  assert (Sub : forall p (fs : list file), NoDup (map relative fs) -> NoDup (map relative (filter p fs))).
  { intros p fs. induction fs as [|f fs IH]; intros N1; [exact N1|]. cbn [map] in N1. apply NoDup_cons_iff in N1 as (N1 & N2). cbn [filter]. destruct (p f); [|now apply IH]. cbn [map]. constructor; [|now apply IH]. intros I. apply N1. apply in_map_iff in I as (g & <- & I). apply filter_In in I as (I & _). now apply in_map. }
  apply Sub. cbn [flat_map]. rewrite app_nil_r, map_app.
  assert (App : forall (a b : list text), NoDup a -> NoDup b -> (forall x, In x a -> ~ In x b) -> NoDup (a ++ b)).
  { induction a as [|x a IH]; intros b Na Nb D; [exact Nb|]. apply NoDup_cons_iff in Na as (N1 & N2). cbn [app]. constructor; [|apply IH; auto; intros y I; apply D; now right]. intros I. apply in_app_or in I as [I|I]; [contradiction|]. now apply (D x (or_introl eq_refl)). }
  apply App; [now apply Sub, Sub|now apply Sub, Sub|]. intros x I J. apply in_map_iff in I as (f & <- & I), J as (g & Eg & J).
  apply filter_In in I as (I & _), J as (J & _). apply filter_In in I as (I & If), J as (J & Jf).
  assert (f = g).
  { clear - Nd I J Eg. induction files as [|h files IH]; [destruct I|]. cbn [map] in Nd. apply NoDup_cons_iff in Nd as (N1 & N2). destruct I as [->|I], J as [->|J]; [reflexivity|exfalso; apply N1; rewrite <- Eg; now apply in_map|exfalso; apply N1; rewrite Eg; now apply in_map|now apply IH]. }
  subst g. unfold in_folder in If, Jf. destruct (names f) as [|n [|m r]]; try discriminate If. apply eqb_bytes_spec in If, Jf. rewrite If in Jf. discriminate Jf.
Qed.
(** The check fails just if a file to look at cannot be opened. *)
Theorem C101_fails : forall root files, check root files = IoError <-> exists f, In f files /\ looked_at root (names f) /\ data f = None.
Proof.
  intros root files. pose proof (marked_spec (flat_map (fun folder => filter (to_check root) (filter (in_folder folder) files)) [bs "addons"; bs "optionals"])) as M. unfold check. destruct (marked _) as [l|].
  - destruct M as (A & _). split; [discriminate|]. intros (f & I & Lk & Ed). exfalso. apply (A f); [now apply chosen|exact Ed].
  - destruct M as (f & I & Ed). apply chosen in I as (I & Lk). split; [intros _; exists f; auto|reflexivity].
Qed.

(** ** Examples *)
Definition bom : text := [239; 187; 191].
Definition ex_files : list file := [
  File [bs "addons"; bs "main"; bs "config.cpp"] (Some (bom ++ bs "class CfgPatches {};"));
  File [bs "addons"; bs "main"; bs "$PBOPREFIX$"] (Some (bom ++ bs "z\main"));
  File [bs "addons"; bs "main"; bs "data"; bs "a.paa"] (Some bom);
  File [bs "optionals"; bs "x"; bs "script.sqf"] (Some (bs "hint"));
  File [bs "README.md"] (Some bom)].
Example C101_project : check (bs "/home/me/mod") ex_files = Report [bs "/addons/main/config.cpp"] /\
  NoDup (map (fun f => flat_map (fun n => 47 :: n) (names f)) ex_files) /\ looked_at (bs "/home/me/mod") [bs "addons"; bs "main"; bs "config.cpp"].
Proof.
  split; [vm_compute; reflexivity|]. split; [vm_compute; repeat constructor; cbn [In]; intuition discriminate|].
  apply (to_check_spec (bs "/home/me/mod") (File [bs "addons"; bs "main"; bs "config.cpp"] None)). split; [vm_compute; reflexivity|left; vm_compute; reflexivity].
Qed.
(** A mark in a file that gives an addon's prefix is not reported: the name has no extension. *)
Theorem C101_prefix_refuted : exists l, check (bs "/home/me/mod") ex_files = Report l /\ ~ In (bs "/addons/main/$PBOPREFIX$") l.
Proof. exists [bs "/addons/main/config.cpp"]. split; [vm_compute; reflexivity|]. vm_compute. intuition discriminate. Qed.
(** In a project somewhere below a folder whose name contains [.hemttout] nothing is. *)
Theorem C101_folder_refuted : check (bs "/home/me/.hemttout/release/mod") ex_files = Report [].
Proof. vm_compute. reflexivity. Qed.

Print Assumptions C101_exact.
Print Assumptions C101_once.
Print Assumptions C101_fails.
Print Assumptions C101_prefix_refuted.
Print Assumptions C101_folder_refuted.
