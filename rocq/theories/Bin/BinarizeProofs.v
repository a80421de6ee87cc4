(** Proofs for C80. *)
From Coq Require Import String.
From Verif Require Import Base.Tactics Base.Bytes Base.Sort Base.Ascii Base.Text Bin.PackModel Bin.PackSpec Workspace.PathModel Workspace.PathProofs Workspace.PathProps Bin.PackProofs.
From Verif Require Import Bin.PackModel Bin.BinarizeModel Bin.BinarizeSpec.
Local Open Scope N_scope.
Local Open Scope list_scope.

(** ** Texts *)
Lemma ends_with_spec p s : ends_with p s = true <-> exists n, s = n ++ p.
Proof.
  unfold ends_with. rewrite starts_with_spec. split; intros (n & H).
  - exists (rev n). rewrite <- (rev_involutive s), H, rev_app_distr, rev_involutive. reflexivity.
  - exists (rev n). now rewrite H, rev_app_distr.
Qed.
Lemma starts_app p b : starts_with p (p ++ b) = true.
Proof. apply starts_with_spec. now exists b. Qed.

(** Dropping a pattern that is there, once. *)
Lemma trim_start_once p s : p <> [] -> (starts_with p s = false) -> trim_start_matches (length (p ++ s)) p (p ++ s) = s.
Proof.
  intros P S. destruct p as [|c p]; [congruence|]. cbn [app length]. cbn [trim_start_matches].
  change (c :: p ++ s) with ((c :: p) ++ s). rewrite starts_app, skipn_here.
  destruct (length (p ++ s)); [reflexivity|]. cbn [trim_start_matches]. now rewrite S.
Qed.
Lemma trim_end_once p s : p <> [] -> ends_with p s = false -> trim_end_matches (length (s ++ p)) p (s ++ p) = s.
Proof.
  intros P S. unfold trim_end_matches. rewrite rev_app_distr.
  replace (length (s ++ p)) with (length (rev p ++ rev s)) by (rewrite !app_length, !rev_length; lia).
  rewrite trim_start_once; [apply rev_involutive| |exact S]. intro E. apply P. now rewrite <- (rev_involutive p), E.
Qed.

(** Replacing the only occurrence, which is at the end. *)
Lemma replace_go_skip pat rep : forall a s, replace_go pat rep (length a) (a ++ s) = replace_go pat rep O s.
Proof. induction a as [|c a IH]; intro s; [reflexivity|]. cbn [length app replace_go]. apply IH. Qed.
Lemma replace_last pat rep : pat <> [] -> forall n,
  (forall a b, n ++ pat = a ++ pat ++ b -> b = []) -> replace pat rep (n ++ pat) = n ++ rep.
Proof.
  intro P. unfold replace. induction n as [|c n IH]; intro U.
  - cbn [app]. destruct pat as [|c pat]; [congruence|]. cbn [replace_go].
    assert (E : starts_with (c :: pat) (c :: pat) = true) by (rewrite <- (app_nil_r (c :: pat)) at 2; apply starts_app). rewrite E.
    cbn [length]. replace (S (length pat) - 1)%nat with (length pat) by lia.
    assert (G := replace_go_skip (c :: pat) rep pat []). rewrite app_nil_r in G. rewrite G. apply app_nil_r.
  - cbn [app replace_go]. destruct (starts_with pat (c :: n ++ pat)) eqn:E.
    + exfalso. apply starts_with_spec in E as (b & E). specialize (U [] b E). subst b. rewrite app_nil_r in E.
      apply (f_equal (@length N)) in E. cbn in E. rewrite app_length in E. lia.
    + f_equal. apply IH. intros a b H. apply (U (c :: a) b). cbn [app]. now rewrite H.
Qed.
Lemma other_spec t : plain_texture t -> forall o, other t = Some o <-> alternative t o.
Proof.
  intros P o. unfold other. split.
  - destruct (ends_with (bs ".paa") t) eqn:E1; [|destruct (ends_with (bs ".tga") t) eqn:E2; [|destruct (ends_with (bs ".png") t) eqn:E3; [|discriminate]]].
    + intro H. apply ends_with_spec in E1 as (n & ->). exists n, (bs ".paa"), (bs ".tga"). split; [now left|]. split; [reflexivity|].
      rewrite replace_last in H; [congruence|discriminate|]. intros a b K. apply (P (bs ".paa") (bs ".tga") a n b); [now left|reflexivity|exact K].
    + intro H. apply ends_with_spec in E2 as (n & ->). exists n, (bs ".tga"), (bs ".paa"). split; [right; now left|]. split; [reflexivity|].
      rewrite replace_last in H; [congruence|discriminate|]. intros a b K. apply (P (bs ".tga") (bs ".paa") a n b); [right; now left|reflexivity|exact K].
    + intro H. apply ends_with_spec in E3 as (n & ->). exists n, (bs ".png"), (bs ".paa"). split; [right; right; now left|]. split; [reflexivity|].
      rewrite replace_last in H; [congruence|discriminate|]. intros a b K. apply (P (bs ".png") (bs ".paa") a n b); [right; right; now left|reflexivity|exact K].
  - assert (D : forall x y n, length x = length y -> ends_with x (n ++ y) = true -> x = y).
    { intros x y n L H. apply ends_with_spec in H as (m & H). apply (f_equal (@rev N)) in H. rewrite !rev_app_distr in H.
      assert (rev x = rev y) as K. { apply (f_equal (firstn (length (rev x)))) in H. rewrite (firstn_app _ (rev x)), firstn_all, Nat.sub_diag in H. replace (length (rev x)) with (length (rev y)) in H by (rewrite !rev_length; auto). rewrite firstn_app, firstn_all, Nat.sub_diag in H. rewrite !firstn_O, !app_nil_r in H. auto. }
      rewrite <- (rev_involutive x), K. apply rev_involutive. }
    intros (n & x & y & I & -> & ->).
    assert (R : replace x y (n ++ x) = n ++ y).
    { apply replace_last; [destruct I as [I|[I|[I|[]]]]; injection I as <- <-; discriminate|]. intros a b K. apply (P x y a n b); [exact I|reflexivity|exact K]. }
    assert (S : forall z, ends_with z (n ++ z) = true) by (intro z; apply ends_with_spec; now exists n).
    assert (F : forall z z', length z = length z' -> z <> z' -> ends_with z (n ++ z') = false).
    { intros z z' L N0. destruct (ends_with z (n ++ z')) eqn:E; [|reflexivity]. destruct N0. eapply D; eauto. }
    destruct I as [I|[I|[I|[]]]]; assert (x = fst (x, y)) as X by reflexivity; assert (y = snd (x, y)) as Y by reflexivity; rewrite <- I in X, Y; cbn [fst snd] in X, Y; subst x y.
    + now rewrite S, R.
    + now rewrite F, S, R by (reflexivity || discriminate).
    + now rewrite !F, S, R by (reflexivity || discriminate).
Qed.

(** ** Missing files *)
Lemma starts_one c s : starts_with [c] s = true <-> exists r, s = c :: r.
Proof. rewrite starts_with_spec. split; intros (r & ->); exists r; reflexivity. Qed.
Lemma rooted_spec x t : from_root x t <-> t = rooted x.
Proof.
  unfold from_root, rooted. destruct (starts_with [92] x) eqn:E.
  - apply starts_one in E. split; [intros [[H _]|[_ K]]; [exact H|now destruct K]|intro; left; auto].
  - assert (~ exists r, x = 92 :: r) as K by (rewrite <- starts_one; congruence).
    split; [intros [[_ H]|[H _]]; [now destruct K|exact H]|intro; right; auto].
Qed.

Section Missing.
  Context (located : text -> option bool).
  (** What the search says without a cache. *)
  Definition verdict (t : text) : option bool :=
    match located t with
    | Some false => match other t with None => Some false | Some o => located o end
    | r => r
    end.
  Context (usedT usedM : text -> Prop) (agree : forall k, usedT k -> usedM k -> verdict k = located k).
  Definition good (c : cache) : Prop := forall k b, cached c k = Some b -> usedT k /\ verdict k = Some b \/ usedM k /\ located k = Some b.

  Lemma cached_cons k b c k' : cached ((k, b) :: c) k' = if eqb_bytes k k' then Some b else cached c k'.
  Proof. unfold cached. cbn [find fst snd]. now destruct (eqb_bytes k k'). Qed.
  Lemma good_nil : good [].
  Proof. intros k b H. discriminate H. Qed.
  Lemma good_texture c k b : good c -> usedT k -> verdict k = Some b -> good ((k, b) :: c).
  Proof.
    intros G U V k' b'. rewrite cached_cons. destruct (eqb_bytes k k') eqn:E; [|apply G].
    apply eqb_bytes_spec in E as <-. intro H. left. split; [exact U|congruence].
  Qed.
  Lemma good_material c k b : good c -> usedM k -> located k = Some b -> good ((k, b) :: c).
  Proof.
    intros G U V k' b'. rewrite cached_cons. destruct (eqb_bytes k k') eqn:E; [|apply G].
    apply eqb_bytes_spec in E as <-. intro H. right. split; [exact U|congruence].
  Qed.

  Definition real_texture (x : text) : Prop := x <> [] /\ ~ exists r, x = 35 :: r.
  Lemma real_texture_spec x : eqb_bytes x [] || starts_with [35] x = false <-> real_texture x.
  Proof.
    unfold real_texture. rewrite <- starts_one, orb_false_iff.
    assert (eqb_bytes x [] = false <-> x <> []) as -> by (destruct x; cbn; split; congruence).
    destruct (starts_with [35] x); split; intros [A B]; split; auto; try congruence.
  Qed.

  (** The step of the loop, whatever the cache holds. *)
  Lemma texture_step t ts c acc : good c -> real_texture t -> usedT (rooted t) ->
    match verdict (rooted t) with
    | None => miss_textures located (t :: ts) c acc = None
    | Some b => exists c', good c' /\ miss_textures located (t :: ts) c acc = miss_textures located ts c' (if b then acc else acc ++ [rooted t])
    end.
  Proof.
    intros G R U. cbn [miss_textures]. apply real_texture_spec in R. rewrite R.
    destruct (cached c (rooted t)) as [b|] eqn:C.
    - assert (V : verdict (rooted t) = Some b) by (destruct (G _ _ C) as [[_ V]|[M V]]; [exact V|rewrite agree; auto]).
      rewrite V. exists c. split; [exact G|]. now destruct b.
    - assert (K : forall b, verdict (rooted t) = Some b -> good ((rooted t, b) :: c)) by (intros; now apply good_texture).
      unfold verdict in K |- *. destruct (located (rooted t)) as [[|]|] eqn:L; [eexists; split; [now apply K|reflexivity]| |reflexivity].
      destruct (other (rooted t)) as [o|] eqn:O; [|eexists; split; [now apply K|reflexivity]].
      destruct (located o) as [[|]|] eqn:L'; [eexists; split; [now apply K|reflexivity]|eexists; split; [now apply K|reflexivity]|reflexivity].
  Qed.
  Lemma textures_spec : forall ts c acc, good c -> (forall t, In t ts -> real_texture t -> usedT (rooted t)) ->
    match miss_textures located ts c acc with
    | None => exists t, In t ts /\ real_texture t /\ verdict (rooted t) = None
    | Some (c', r) => good c' /\ (forall k, In k r <-> In k acc \/ exists t, In t ts /\ real_texture t /\ k = rooted t /\ verdict k = Some false) /\
                      (forall t, In t ts -> real_texture t -> verdict (rooted t) <> None)
    end.
  Proof.
    induction ts as [|t ts IH]; intros c acc G U.
    - cbn [miss_textures]. split; [exact G|]. split; [|intros t []]. intro k. split; [auto|]. intros [H|(t & [] & _)]. exact H.
    - destruct (eqb_bytes t [] || starts_with [35] t) eqn:R.
      + cbn [miss_textures]. rewrite R. specialize (IH c acc G (fun t' I => U t' (or_intror I))).
        assert (NR : ~ real_texture t) by (rewrite <- real_texture_spec; congruence).
        destruct (miss_textures located ts c acc) as [(c', r)|].
        * destruct IH as (G' & H & V). split; [exact G'|]. split; [|intros t' [<-|I] R'; [contradiction|auto]].
          intro k. rewrite H. split; (intros [I|(t' & I & R' & K)]; [now left|right; exists t']); [split; [now right|auto]|destruct I as [<-|I]; [contradiction|auto]].
        * destruct IH as (t' & I & R' & V). exists t'. split; [now right|auto].
      + assert (Rt := proj1 (real_texture_spec t) R). assert (Ut := U t (or_introl eq_refl) Rt).
        assert (ST := texture_step t ts c acc G Rt Ut). destruct (verdict (rooted t)) as [b|] eqn:V.
        * destruct ST as (c' & G' & ->). specialize (IH c' (if b then acc else acc ++ [rooted t]) G' (fun t' I => U t' (or_intror I))).
          destruct (miss_textures located ts c' (if b then acc else acc ++ [rooted t])) as [(c2, r)|].
          -- destruct IH as (G2 & H & V2). split; [exact G2|]. split; [|intros t' [<-|I] R'; [congruence|auto]].
             intro k. rewrite H. destruct b.
             ++ split; (intros [I|(t' & I & R' & E & K)]; [now left|right; exists t']); [split; [now right|auto]|destruct I as [<-|I]; [subst k; congruence|auto]].
             ++ rewrite in_app_iff. split.
                ** intros [[I|[<-|[]]]|(t' & I & R' & E & K)]; [now left|right; exists t; split; [now left|auto]|right; exists t'; split; [now right|auto]].
                ** intros [I|(t' & [<-|I] & R' & E & K)]; [left; now left|left; right; now left|right; exists t'; auto].
          -- destruct IH as (t' & I & R' & V'). exists t'. split; [now right|auto].
        * rewrite ST. exists t. split; [now left|auto].
  Qed.

  Lemma material_step t ts c acc : good c -> t <> [] -> usedM (rooted t) ->
    match located (rooted t) with
    | None => miss_materials located (t :: ts) c acc = None
    | Some b => exists c', good c' /\ miss_materials located (t :: ts) c acc = miss_materials located ts c' (if b then acc else acc ++ [rooted t])
    end.
  Proof.
    intros G R U. cbn [miss_materials]. assert (eqb_bytes t [] = false) as -> by (destruct t; [congruence|reflexivity]).
    destruct (cached c (rooted t)) as [b|] eqn:C.
    - assert (V : located (rooted t) = Some b) by (destruct (G _ _ C) as [[M V]|[_ V]]; [rewrite <- agree; auto|exact V]).
      rewrite V. exists c. split; [exact G|]. now destruct b.
    - assert (K : forall b, located (rooted t) = Some b -> good ((rooted t, b) :: c)) by (intros; now apply good_material).
      destruct (located (rooted t)) as [[|]|] eqn:L; [eexists; split; [now apply K|reflexivity]|eexists; split; [now apply K|reflexivity]|reflexivity].
  Qed.
  Lemma materials_spec : forall ts c acc, good c -> (forall t, In t ts -> t <> [] -> usedM (rooted t)) ->
    match miss_materials located ts c acc with
    | None => exists t, In t ts /\ t <> [] /\ located (rooted t) = None
    | Some (c', r) => good c' /\ (forall k, In k r <-> In k acc \/ exists t, In t ts /\ t <> [] /\ k = rooted t /\ located k = Some false) /\
                      (forall t, In t ts -> t <> [] -> located (rooted t) <> None)
    end.
  Proof.
    induction ts as [|t ts IH]; intros c acc G U.
    - cbn [miss_materials]. split; [exact G|]. split; [|intros t []]. intro k. split; [auto|]. intros [H|(t & [] & _)]. exact H.
    - destruct (eqb_bytes t []) eqn:R.
      + cbn [miss_materials]. rewrite R. specialize (IH c acc G (fun t' I => U t' (or_intror I))).
        apply eqb_bytes_spec in R as ->.
        destruct (miss_materials located ts c acc) as [(c', r)|].
        * destruct IH as (G' & H & V). split; [exact G'|]. split; [|intros t' [<-|I] R'; [congruence|auto]].
          intro k. rewrite H. split; (intros [I|(t' & I & R' & K)]; [now left|right; exists t']); [split; [now right|auto]|destruct I as [<-|I]; [congruence|auto]].
        * destruct IH as (t' & I & R' & V). exists t'. split; [now right|auto].
      + assert (Rt : t <> []) by (destruct t; [discriminate R|discriminate]). assert (Ut := U t (or_introl eq_refl) Rt).
        assert (ST := material_step t ts c acc G Rt Ut). destruct (located (rooted t)) as [b|] eqn:V.
        * destruct ST as (c' & G' & ->). specialize (IH c' (if b then acc else acc ++ [rooted t]) G' (fun t' I => U t' (or_intror I))).
          destruct (miss_materials located ts c' (if b then acc else acc ++ [rooted t])) as [(c2, r)|].
          -- destruct IH as (G2 & H & V2). split; [exact G2|]. split; [|intros t' [<-|I] R'; [congruence|auto]].
             intro k. rewrite H. destruct b.
             ++ split; (intros [I|(t' & I & R' & E & K)]; [now left|right; exists t']); [split; [now right|auto]|destruct I as [<-|I]; [subst k; congruence|auto]].
             ++ rewrite in_app_iff. split.
                ** intros [[I|[<-|[]]]|(t' & I & R' & E & K)]; [now left|right; exists t; split; [now left|auto]|right; exists t'; split; [now right|auto]].
                ** intros [I|(t' & [<-|I] & R' & E & K)]; [left; now left|left; right; now left|right; exists t'; auto].
          -- destruct IH as (t' & I & R' & V'). exists t'. split; [now right|auto].
        * rewrite ST. exists t. split; [now left|auto].
  Qed.
End Missing.

(** ** The selection *)
Lemma extension_spec exts name : Forall (fun x => x <> [] /\ ~ In 46 x) exts ->
  existsb (eqb_bytes (snd (split_name name))) exts = true <-> has_extension exts name.
Proof.
  intro P. rewrite existsb_exists. rewrite Forall_forall in P. split.
  - intros (x & I & E). apply eqb_bytes_spec in E. revert E. unfold split_name. destruct (rsplit_once 46 name) as [(a, b)|] eqn:R.
    + apply rsplit_spec in R as [-> ND]. destruct a as [|c a]; cbn [snd]; intro E; [destruct (P x I); congruence|].
      exists (c :: a), x. rewrite <- E. split; [reflexivity|]. split; [discriminate|]. now rewrite E.
    + cbn [snd]. intro E. destruct (P x I). congruence.
  - intros (n & x & -> & Hn & I). exists x. split; [exact I|]. destruct (P x I) as [_ ND].
    assert (R : rsplit_once 46 (n ++ bs "." ++ x) = Some (n, x)) by (apply rsplit_spec; split; [reflexivity|exact ND]).
    unfold split_name. rewrite R. destruct n; [congruence|]. apply eqb_bytes_refl.
Qed.
Lemma join_dirs dirs name : join [47] (dirs ++ [name]) = flat_map (fun d => d ++ bs "/") dirs ++ name.
Proof.
  induction dirs as [|d dirs IH]; [reflexivity|]. cbn [app flat_map]. destruct (dirs ++ [name]) as [|x r] eqn:E; [destruct dirs; discriminate E|].
  rewrite join_cons, <- E, E, IH. change (bs "/") with [47]. now rewrite <- !app_assoc.
Qed.
Lemma trim_slashes_id c r : c <> 47 -> trim_slashes (c :: r) = c :: r.
Proof. intro H. cbn [trim_slashes]. apply N.eqb_neq in H. now rewrite H. Qed.
Lemma dirs_end dirs name : name_ok name -> ends_with name (flat_map (fun d => d ++ bs "/") dirs) = false.
Proof.
  intros (NE & NS & _). destruct (ends_with name _) eqn:E; [|reflexivity]. exfalso. apply ends_with_spec in E as (n & E).
  destruct dirs as [|d dirs] using rev_ind.
  - cbn in E. symmetry in E. apply app_eq_nil in E as [_ E]. congruence.
  - rewrite flat_map_app in E. cbn [flat_map] in E. rewrite app_nil_r, app_assoc in E.
    destruct name as [|x name _] using rev_ind; [congruence|]. rewrite app_assoc in E. change (bs "/") with [47] in E. apply app_inj_tail in E as [_ <-].
    apply NS, in_app_iff. right. now left.
Qed.
Lemma target_ok tmp a e : (exists c r, b_folder a = c :: r /\ c <> 47) -> Forall name_ok (parts e) ->
  Target (source_of tmp a e) (output_of tmp a e) (e_name e) = target_for tmp a e.
Proof.
  intros (c & r & F & C) P. unfold target_for. f_equal.
  - unfold source_of, as_str. cbn [trim_slashes]. rewrite N.eqb_refl, F. cbn [app]. rewrite trim_slashes_id by exact C.
    assert (E : c :: r ++ 47 :: join [47] (parts e) = (c :: r) ++ 47 :: join [47] (parts e)) by reflexivity. rewrite E.
    rewrite trim_start_once; [|discriminate|cbn [starts_with]; apply N.eqb_neq in C; now rewrite C].
    cbn [trim_slashes]. rewrite N.eqb_refl.
    assert (J : trim_slashes (join [47] (parts e)) = join [47] (parts e)).
    { destruct (join_head 47 (parts e)) as (b & w & J & B).
      - unfold parts. destruct (e_dirs e); discriminate.
      - eapply Forall_impl; [|exact P]. intros n (H1 & H2 & _). auto.
      - rewrite J. now apply trim_slashes_id. }
    rewrite J. unfold parts in *. rewrite join_dirs. apply Forall_app in P as [_ P]. inversion P as [|? ? Pn _]; subst.
    rewrite trim_end_once; [reflexivity|apply Pn|now apply dirs_end].
  - unfold output_of, parent_str. cbn [trim_slashes]. rewrite N.eqb_refl.
    assert (exists q, join [47] (b_folder a :: e_dirs e) = c :: q) as (q & Q) by (rewrite F; destruct (e_dirs e); [exists r|eexists]; reflexivity).
    rewrite Q, trim_slashes_id by exact C. change (bs "/") with [47]. now rewrite Q.
Qed.
Lemma signature_spec content : (4 <= length content)%nat -> check_signature (firstn 4 content) = true <-> already_binarized content.
Proof.
  intro L. unfold check_signature, already_binarized. rewrite !orb_true_iff, !eqb_bytes_spec. split.
  - intro H. assert (K : exists magic, In magic [bs "ODOL"; bs "BMTR"; bs "OPRW"] /\ firstn 4 content = magic).
    { destruct H as [[H|H]|H]; rewrite H; eexists; (split; [|reflexivity]); cbn; auto. }
    destruct K as (m & I & K). exists m, (skipn 4 content). split; [exact I|]. rewrite <- K. symmetry. apply firstn_skipn.
  - intros (m & r & I & ->). destruct I as [<-|[<-|[<-|[]]]]; cbn; auto.
Qed.
Lemma short_unsigned content : (length content < 4)%nat -> ~ already_binarized content.
Proof. intros L (m & r & I & ->). rewrite app_length in L. destruct I as [<-|[<-|[<-|[]]]]; cbn in L; lia. Qed.
Lemma mlod_spec content : eqb_bytes (firstn 4 content) [77; 76; 79; 68] = true <-> is_mlod content.
Proof.
  rewrite eqb_bytes_spec. split.
  - intro H. exists (skipn 4 content). rewrite <- (firstn_skipn 4 content) at 1. rewrite H. reflexivity.
  - intros (r & ->). reflexivity.
Qed.

Section Check.
  Context (located : text -> option bool) (order : list text -> list text) (order_ok : forall ts t, In t (order ts) <-> In t ts)
    (read_p3d : bytes -> option (list (text * text))) (glob : bytes -> option (bytes -> bool)) (tmp : text) (opt : pdrive_option).
  Notation check_entry := (check_entry located order read_p3d glob tmp opt).
  Notation check_tree := (check_tree located order read_p3d glob tmp opt).
  Notation check_addons := (check_addons located order read_p3d glob tmp opt).
  Notation check := (check located order read_p3d glob tmp opt).
  Notation verdict := (verdict located).

  Lemma patterns_spec ps : match patterns glob ps with
    | None => exists p, In p ps /\ glob p = None
    | Some ms => forall path, existsb (fun m : bytes -> bool => m path) ms = true <-> matches glob ps path
    end.
  Proof.
    induction ps as [|p ps IH]; cbn [patterns].
    - intro path. split; [discriminate|]. intros (p & _ & [] & _).
    - destruct (glob p) as [m|] eqn:E; [|exists p; split; [now left|exact E]]. destruct (patterns glob ps) as [ms|].
      + intro path. cbn [existsb]. rewrite orb_true_iff, IH. split.
        * intros [H|(q & m' & I & H)]; [exists p, m; split; [now left|auto]|exists q, m'; split; [now right|auto]].
        * intros (q & m' & [<-|I] & G & H); [left; congruence|right; exists q, m'; auto].
      + destruct IH as (q & I & H). exists q. split; [now right|exact H].
  Qed.

  Context (l : list addon) (ok : laid_out l).
  Notation candidate := (candidate glob l).
  Notation wanted := (wanted glob l).
  Notation model := (model glob read_p3d l).
  Definition usedT k := exists a e faces, model a e faces /\ uses_texture faces k.
  Definition usedM k := exists a e faces, model a e faces /\ uses_material faces k.
  Definition warn := match opt with Ignore => true | _ => false end.
  Definition lists (missing : text -> Prop) (ms : list text) : Prop := ms <> [] /\ forall k, In k ms <-> missing k.
  Definition says a e (m : message) : Prop := exists faces, model a e faces /\
    ((exists ms, m = NoTextures (as_str (b_folder a) e) ms warn /\ lists (fun k => uses_texture faces k /\ verdict k = Some false) ms) \/
     (exists ms, m = NoMaterials (as_str (b_folder a) e) ms warn /\ lists (fun k => uses_material faces k /\ located k = Some false) ms)).
  Notation good := (good located usedT usedM).
  Definition agreeing := forall k, usedT k -> usedM k -> verdict k = located k.

  Lemma uses_texture_spec faces k : uses_texture faces k <-> exists t, In t (order (map fst faces)) /\ real_texture t /\ k = rooted t.
  Proof using order_ok.
    unfold uses_texture, real_texture. split.
    - intros (x & m & I & NE & NH & R). exists x. rewrite order_ok, <- rooted_spec. split; [apply in_map_iff; now exists (x, m)|auto].
    - intros (x & I & (NE & NH) & R). apply order_ok, in_map_iff in I as ((x', m) & <- & I). exists x', m. rewrite rooted_spec. auto.
  Qed.
  Lemma uses_material_spec faces k : uses_material faces k <-> exists t, In t (order (map snd faces)) /\ t <> [] /\ k = rooted t.
  Proof using order_ok.
    unfold uses_material. split.
    - intros (x & m & I & NE & R). exists m. rewrite order_ok, <- rooted_spec. split; [apply in_map_iff; now exists (x, m)|auto].
    - intros (m & I & NE & R). apply order_ok, in_map_iff in I as ((x, m') & <- & I). exists x, m'. rewrite rooted_spec. auto.
  Qed.
  Lemma missing_spec a e faces c : agreeing -> model a e faces -> good c ->
    match missing located order faces c with
    | None => exists k, (uses_texture faces k /\ verdict k = None) \/ (uses_material faces k /\ located k = None)
    | Some (c', (mt, mm)) => good c' /\ (forall k, In k mt <-> uses_texture faces k /\ verdict k = Some false) /\
                             (forall k, In k mm <-> uses_material faces k /\ located k = Some false)
    end.
  Proof using order_ok.
    intros agree M G. unfold missing.
    assert (UT : forall t, In t (order (map fst faces)) -> real_texture t -> usedT (rooted t)).
    { intros t I R. exists a, e, faces. split; [exact M|]. apply uses_texture_spec. now exists t. }
    assert (UM : forall t, In t (order (map snd faces)) -> t <> [] -> usedM (rooted t)).
    { intros t I R. exists a, e, faces. split; [exact M|]. apply uses_material_spec. now exists t. }
    assert (T := textures_spec located usedT usedM agree _ c [] G UT).
    destruct (miss_textures located (order (map fst faces)) c []) as [(c1, mt)|].
    2: { destruct T as (t & I & R & V). exists (rooted t). left. split; [apply uses_texture_spec; now exists t|exact V]. }
    destruct T as (G1 & T & _). assert (M' := materials_spec located usedT usedM agree _ c1 [] G1 UM).
    destruct (miss_materials located (order (map snd faces)) c1 []) as [(c2, mm)|].
    2: { destruct M' as (t & I & R & V). exists (rooted t). right. split; [apply uses_material_spec; now exists t|exact V]. }
    destruct M' as (G2 & M' & _). split; [exact G2|]. split; intro k.
    - rewrite T, uses_texture_spec. split; [intros [[]|(t & I & R & E & V)]; split; [now exists t|exact V]|].
      intros [(t & I & R & E) V]. right. exists t. auto.
    - rewrite M', uses_material_spec. split; [intros [[]|(t & I & R & E & V)]; split; [now exists t|exact V]|].
      intros [(t & I & R & E) V]. right. exists t. auto.
  Qed.

  (** One entry of an addon that is binarized. *)
  Definition enabled (a : addon) : Prop := forall exclude, b_config a <> Some (false, exclude).
  Definition step_ok (a : addon) (e : entry) (s s' : state) : Prop :=
    (s_targets s' = s_targets s ++ [target_for tmp a e] /\ (exists content, wanted a e content) \/
     s_targets s' = s_targets s /\ forall content, ~ wanted a e content) /\
    (agreeing -> good (s_cache s) -> good (s_cache s') /\ exists msgs, s_report s' = s_report s ++ msgs /\ (forall m, In m msgs -> says a e m) /\
      forall faces, model a e faces ->
        (forall k, uses_texture faces k -> verdict k = Some false -> exists ms, In k ms /\ In (NoTextures (as_str (b_folder a) e) ms warn) msgs) /\
        (forall k, uses_material faces k -> located k = Some false -> exists ms, In k ms /\ In (NoMaterials (as_str (b_folder a) e) ms warn) msgs)).
  Definition bad_file := exists a e content, candidate a e content /\
    ((length content < 4)%nat \/ is_mlod content /\ read_p3d content = None).
  Definition bad_pattern := exists a on exclude p, In a l /\ b_config a = Some (on, exclude) /\ In p exclude /\ glob p = None.
  Definition bad_path := exists k, usedT k /\ verdict k = None \/ usedM k /\ located k = None.

  Lemma nothing_said a e s : (forall content, ~ wanted a e content) -> step_ok a e s s.
  Proof using.
    intro NW. split; [right; auto|]. intros _ G. split; [exact G|]. exists []. split; [now rewrite app_nil_r|]. split; [intros m []|].
    intros faces (content & W & _). destruct (NW _ W).
  Qed.
  Lemma entry_spec a e s : In a l -> In e (b_tree a) -> enabled a ->
    match check_entry a e s with
    | Panics => bad_file
    | Fails => bad_pattern \/ (agreeing -> good (s_cache s) -> bad_path)
    | Done s' => step_ok a e s s'
    end.
  Proof using ok order_ok.
    intros Ia Ie En. unfold BinarizeModel.check_entry. destruct (e_content e) as [content|] eqn:C.
    2: { apply nothing_said. intros content ((_ & _ & K & _) & _). congruence. }
    assert (EX := extension_spec [bs "rtm"; bs "p3d"; bs "wrp"] (e_name e) ltac:(repeat constructor; (discriminate || (cbn; lia)))).
    assert (U : forall content', candidate a e content' -> content' = content) by (intros c' (_ & _ & K & _); congruence).
    destruct (existsb _ _) eqn:X.
    2: { apply nothing_said. intros c' ((_ & _ & _ & K & _) & _). apply EX in K. congruence. }
    assert (HX := proj1 EX eq_refl). clear EX X.
    assert (Lo := proj1 (Forall_forall _ _) ok a Ia). destruct Lo as [Fo Pa]. assert (Pe := proj1 (Forall_forall _ _) Pa e Ie). cbv beta in Pe.
    assert (SK : match skipped glob a e with
                 | None => bad_pattern
                 | Some b => b = true <-> ~ candidate a e content
                 end).
    { unfold skipped. destruct (b_config a) as [(on, exclude)|] eqn:Cf.
      - assert (PS := patterns_spec exclude). destruct (patterns glob exclude) as [ms|].
        + rewrite below_join by exact Pe. rewrite PS. assert (on = true) as -> by (destruct on; [reflexivity|destruct (En exclude); exact Cf]).
          split.
          * intros Ma (_ & _ & _ & _ & K). rewrite Cf in K. destruct (K _ _ eq_refl). contradiction.
          * intro NC. rewrite <- PS. destruct (existsb (fun m : bytes -> bool => m (join [47] (parts e))) ms) eqn:B; [reflexivity|].
            destruct NC. repeat split; auto; intros; [congruence|]. rewrite Cf in H. injection H as <- <-. rewrite <- PS. congruence.
        + destruct PS as (p & I & G). exists a, on, exclude, p. auto.
      - split; [discriminate|]. intro NC. destruct NC. repeat split; auto; congruence. }
    destruct (skipped glob a e) as [[|]|]; [apply nothing_said; intros c' (K & _); assert (c' = content) as -> by auto; now apply SK| |now left].
    assert (Ca : candidate a e content).
    { destruct SK as [_ SK]. repeat split; auto; destruct (b_config a) as [(on', ex')|] eqn:Cf; try congruence.
      - destruct on; [reflexivity|]. exfalso. apply (En exclude). congruence.
      - intro Ma. discriminate SK. intros (_ & _ & _ & _ & K). rewrite Cf in K. injection H as <- <-. now destruct (K _ _ eq_refl). }
    clear SK. destruct (Nat.ltb_spec (length content) 4) as [Lt|Le]; [exists a, e, content; auto|].
    assert (SG := signature_spec content Le). destruct (check_signature (firstn 4 content)).
    { apply nothing_said. intros c' (K & NB). assert (c' = content) as -> by auto. apply NB, SG. reflexivity. }
    assert (W : wanted a e content) by (split; [exact Ca|intro K; apply SG in K; discriminate K]). clear SG.
    rewrite target_ok by auto.
    assert (ML := mlod_spec content). destruct (eqb_bytes (firstn 4 content) [77; 76; 79; 68]).
    2: { split; [left; cbn [s_targets]; split; [reflexivity|now exists content]|]. cbn [s_cache s_report]. intros Ag G. split; [exact G|]. exists []. split; [now rewrite app_nil_r|].
         split; [intros m []|]. intros faces (c' & (K & _) & IM & _). assert (c' = content) as -> by auto. apply ML in IM. discriminate IM. }
    assert (IM := proj1 ML eq_refl). clear ML. destruct (read_p3d content) as [faces|] eqn:R; [|exists a, e, content; auto].
    assert (Mo : model a e faces) by (exists content; auto).
    assert (UF : forall f', model a e f' -> f' = faces) by (intros f' (c' & (K & _) & _ & R'); assert (c' = content) as -> by auto; congruence).
    assert (MS := fun Ag => missing_spec a e faces (s_cache s) Ag Mo).
    destruct (missing located order faces (s_cache s)) as [(c', (mt, mm))|].
    2: { right. intros Ag G. destruct (MS Ag G) as (k & [(UT & V)|(UM & V)]); exists k; [left|right]; (split; [exists a, e, faces; auto|exact V]). }
    split; [left; cbn [s_targets]; split; [reflexivity|now exists content]|]. cbn [s_cache s_report]. intros Ag G. destruct (MS Ag G) as (G' & HT & HM). split; [exact G'|].
    exists ((match mt with [] => [] | _ => [NoTextures (as_str (b_folder a) e) mt warn] end) ++ match mm with [] => [] | _ => [NoMaterials (as_str (b_folder a) e) mm warn] end).
    split; [unfold warn; destruct mt, mm; cbn [app]; rewrite ?app_nil_r, <- ?app_assoc; reflexivity|]. split.
    - intros m I. apply in_app_iff in I as [I|I]; exists faces; (split; [exact Mo|]).
      + left. destruct mt as [|x mt]; [destruct I|]. destruct I as [<-|[]]. exists (x :: mt). split; [reflexivity|]. split; [discriminate|exact HT].
      + right. destruct mm as [|x mm]; [destruct I|]. destruct I as [<-|[]]. exists (x :: mm). split; [reflexivity|]. split; [discriminate|exact HM].
    - intros f' Mf. assert (f' = faces) as -> by auto. split; intros k Us V.
      + exists mt. assert (In k mt) as I by (apply HT; auto). split; [exact I|]. apply in_app_iff. left. destruct mt; [destruct I|now left].
      + exists mm. assert (In k mm) as I by (apply HM; auto). split; [exact I|]. apply in_app_iff. right. destruct mm; [destruct I|now left].
  Qed.

  (** Entry by entry. *)
  Notation sel := (fun p : addon * entry => exists content, wanted (fst p) (snd p) content).
  Definition told (ps : list (addon * entry)) (rep msgs : list message) (rep' : list message) : Prop :=
    rep' = rep ++ msgs /\ (forall m, In m msgs -> exists a e, In (a, e) ps /\ says a e m) /\
    forall a e faces, In (a, e) ps -> model a e faces ->
      (forall k, uses_texture faces k -> verdict k = Some false -> exists ms, In k ms /\ In (NoTextures (as_str (b_folder a) e) ms warn) msgs) /\
      (forall k, uses_material faces k -> located k = Some false -> exists ms, In k ms /\ In (NoMaterials (as_str (b_folder a) e) ms warn) msgs).
  Definition run_ok (ps : list (addon * entry)) (s s' : state) : Prop :=
    (exists ws, selected sel ps ws /\ s_targets s' = s_targets s ++ map (fun p => target_for tmp (fst p) (snd p)) ws) /\
    (agreeing -> good (s_cache s) -> good (s_cache s') /\ exists msgs, told ps (s_report s) msgs (s_report s')).
  Lemma run_nil s : run_ok [] s s.
  Proof using.
    split; [exists []; split; [constructor|now rewrite app_nil_r]|]. intros _ G. split; [exact G|]. exists []. split; [now rewrite app_nil_r|]. split; [intros m []|intros a e faces []].
  Qed.
  Lemma run_app ps ps' s s1 s2 : run_ok ps s s1 -> run_ok ps' s1 s2 -> run_ok (ps ++ ps') s s2.
  Proof using.
    intros [(ws & W & T) R] [(ws' & W' & T') R']. split.
    - exists (ws ++ ws'). split; [|rewrite T', T, map_app, app_assoc; reflexivity].
      clear -W W'. induction W; [exact W'|now constructor|now constructor].
    - intros Ag G. destruct (R Ag G) as (G1 & msgs & E1 & S1 & C1), (R' Ag G1) as (G2 & msgs' & E2 & S2 & C2).
      split; [exact G2|]. exists (msgs ++ msgs'). split; [rewrite E2, E1; symmetry; apply app_assoc|]. split.
      + intros m I. apply in_app_iff in I as [I|I]; [destruct (S1 m I) as (a & e & I' & H)|destruct (S2 m I) as (a & e & I' & H)]; exists a, e; (split; [apply in_app_iff; auto|exact H]).
      + intros a e faces I M. apply in_app_iff in I as [I|I]; [destruct (C1 a e faces I M) as [HT HM]|destruct (C2 a e faces I M) as [HT HM]];
          (split; intros k Us V; [destruct (HT k Us V) as (ms & K & J)|destruct (HM k Us V) as (ms & K & J)]; exists ms; (split; [exact K|apply in_app_iff; auto])).
  Qed.
  Lemma run_one a e s s' : step_ok a e s s' -> run_ok [(a, e)] s s'.
  Proof using.
    intros [T R]. split.
    - destruct T as [[T W]|[T W]].
      + exists [(a, e)]. split; [constructor; [exact W|constructor]|exact T].
      + exists []. split; [constructor; [intros (c & K); now apply (W c)|constructor]|now rewrite app_nil_r].
    - intros Ag G. destruct (R Ag G) as (G' & msgs & E & S & C). split; [exact G'|]. exists msgs. split; [exact E|]. split.
      + intros m I. exists a, e. split; [now left|auto].
      + intros a' e' faces [[= <- <-]|[]] M. auto.
  Qed.
  Definition run_spec (ps : list (addon * entry)) (s : state) (o : outcome) : Prop :=
    match o with
    | Panics => bad_file
    | Fails => bad_pattern \/ (agreeing -> good (s_cache s) -> bad_path)
    | Done s' => run_ok ps s s'
    end.
  Lemma tree_spec a : In a l -> enabled a -> forall es s, (forall e, In e es -> In e (b_tree a)) -> run_spec (map (pair a) es) s (check_tree a es s).
  Proof using ok order_ok.
    intros Ia En. induction es as [|e es IH]; intros s I; [apply run_nil|]. cbn [BinarizeModel.check_tree].
    assert (E := entry_spec a e s Ia (I e (or_introl eq_refl)) En). destruct (check_entry a e s) as [| |s1]; [exact E|exact E|].
    specialize (IH s1 (fun e' I' => I e' (or_intror I'))). apply run_one in E. destruct (check_tree a es s1) as [| |s2]; cbn [run_spec] in *; [exact IH| |].
    - destruct IH as [IH|IH]; [now left|right]. intros Ag G. apply IH; [exact Ag|]. now apply E.
    - exact (run_app [(a, e)] (map (pair a) es) s s1 s2 E IH).
  Qed.
  Lemma walk_off a es s : ~ enabled a -> run_ok (map (pair a) es) s s.
  Proof using.
    intro NE. assert (NW : forall e content, ~ wanted a e content).
    { intros e content ((_ & _ & _ & _ & K) & _). apply NE. intros ex H. destruct (K _ _ H) as [H' _]. discriminate H'. }
    induction es as [|e es IH]; [apply run_nil|]. change (map (pair a) (e :: es)) with ([(a, e)] ++ map (pair a) es).
    apply run_app with s; [|exact IH]. apply run_one, nothing_said. apply NW.
  Qed.
  Lemma addons_spec : forall l0 s, (forall a, In a l0 -> In a l) -> run_spec (walk l0) s (check_addons l0 s).
  Proof using ok order_ok.
    induction l0 as [|a l0 IH]; intros s I; [apply run_nil|]. cbn [BinarizeModel.check_addons].
    assert (E : run_spec (map (pair a) (b_tree a)) s (match b_config a with Some (false, _) => Done s | _ => check_tree a (b_tree a) s end)).
    { assert (T : enabled a -> run_spec (map (pair a) (b_tree a)) s (check_tree a (b_tree a) s)) by (intro En; apply tree_spec; auto; apply I; now left).
      unfold enabled in T. destruct (b_config a) as [([|], ex)|] eqn:C; [apply T; congruence| |apply T; congruence].
      apply walk_off. intro K. apply (K ex). exact C. }
    destruct (match b_config a with Some (false, _) => Done s | _ => check_tree a (b_tree a) s end) as [| |s1]; [exact E|exact E|].
    specialize (IH s1 (fun a' I' => I a' (or_intror I'))). destruct (check_addons l0 s1) as [| |s2]; cbn [run_spec] in *; [exact IH| |].
    - destruct IH as [IH|IH]; [now left|right]. intros Ag G. apply IH; [exact Ag|]. now apply E.
    - exact (run_app _ (walk l0) s s1 s2 E IH).
  Qed.
End Check.
