(** Lemmas for C86 and C87. *)
From Coq Require Import String.
From Verif Require Import Base.Tactics Base.Bytes Base.Ascii Base.Sort Base.Text Bin.ExecModel Bin.ExecSpec Bin.ExecProps Bin.AddonModel Bin.AddonSpec Bin.AddonProps.
From Verif Require Import Bin.OutputModel Bin.OutputSpec.
From Verif Require Bin.PackModel Bin.BinarizeModel Workspace.PathModel.
Local Open Scope N_scope.
Local Open Scope list_scope.

(** ** Folders *)
Lemma same_path_eq : forall p q, same_path p q = true <-> p = q.
Proof.
  unfold same_path. induction p as [|a p IH]; destruct q as [|b q]; cbn [PackModel.eqb_parts]; try (split; congruence).
  rewrite andb_true_iff, IH, eqb_bytes_spec. split; [intros (-> & ->); reflexivity|intros [= -> ->]; auto].
Qed.
Lemma same_path_neq p q : same_path p q = false <-> p <> q.
Proof. destruct (same_path p q) eqn:E; [apply same_path_eq in E|]; split; try congruence. intros _ H. apply same_path_eq in H. congruence. Qed.
Lemma same_path_refl p : same_path p p = true.
Proof. now apply same_path_eq. Qed.
Lemma path_dec : forall p q : path, {p = q} + {p <> q}.
Proof. apply list_eq_dec, list_eq_dec, N.eq_dec. Qed.

Section Look.
  Context {A : Type}.
  Lemma look_put_same p (a : A) l : look p (put p a l) = Some a.
  Proof. unfold look, put. cbn [find fst snd]. now rewrite same_path_refl. Qed.
  Lemma look_put_other p q (a : A) l : p <> q -> look p (put q a l) = look p l.
  Proof.
    intros H. unfold look, put. cbn [find fst snd]. rewrite (proj2 (same_path_neq q p)) by congruence.
    replace (find (fun x => same_path (fst x) p) (filter (fun x => negb (same_path (fst x) q)) l)) with (find (fun x => same_path (fst x) p) l); [reflexivity|].
    induction l as [|[r b] l IH]; [reflexivity|]. cbn [find filter fst]. destruct (same_path r p) eqn:E.
    - apply same_path_eq in E as ->. rewrite (proj2 (same_path_neq p q)) by auto. cbn [negb find fst]. now rewrite same_path_refl.
    - destruct (same_path r q); cbn [negb find fst]; [exact IH|]. now rewrite E.
  Qed.
  Lemma look_in p (a : A) l : NoDup (map fst l) -> (look p l = Some a <-> In (p, a) l).
  Proof.
    unfold look. induction l as [|[q b] l IH]; intros N; [split; [discriminate|contradiction]|]. cbn [find fst snd map] in *. inversion N as [|? ? N1 N2]; subst.
    destruct (same_path q p) eqn:E; cbn [snd].
    - apply same_path_eq in E as ->. split; [intros [= ->]; now left|]. intros [[= ->]|H]; [reflexivity|]. exfalso. apply N1. now apply (in_map fst) in H.
    - apply same_path_neq in E. rewrite (IH N2). split; [now right|]. intros [[= -> _]|H]; [congruence|exact H].
  Qed.
  Lemma look_none p (l : list (path * A)) : look p l = None <-> ~ In p (map fst l).
  Proof.
    unfold look. induction l as [|[q b] l IH]; cbn [find map fst In]; [split; auto|]. destruct (same_path q p) eqn:E; cbn [snd].
    - apply same_path_eq in E as ->. split; [discriminate|]. intros H. exfalso. apply H. now left.
    - apply same_path_neq in E. rewrite IH. split; [intros H [X|X]; auto|]. intros H X. apply H. now right.
  Qed.
  Lemma put_keys p (a : A) l : NoDup (map fst l) -> NoDup (map fst (put p a l)).
  Proof.
    intros N. unfold put. cbn [map fst]. constructor.
    - intros H. apply in_map_iff in H as ([q b] & Q & H). cbn in Q. subst q. apply filter_In in H as (_ & H). cbn [fst] in H. now rewrite same_path_refl in H.
    - induction l as [|[q b] l IH]; [constructor|]. cbn [filter fst map] in *. inversion N as [|? ? N1 N2]; subst. destruct (same_path q p); cbn [negb map fst]; auto.
      constructor; auto. intros H. apply N1. apply in_map_iff in H as (x & Q & H). apply filter_In in H as (H & _). rewrite <- Q. now apply in_map.
  Qed.
End Look.

(** ** Places *)
Section Places.
  Context {D : Type} (pr : project) (au : bytes).
  Notation addon := (addon D).
  Lemma own_mod_dec (a : addon) : {own_mod pr a} + {~ own_mod pr a}.
  Proof.
    unfold own_mod. destruct (loc a), (optional_mod_folders pr); (left; split; reflexivity) || (right; intros [? ?]; congruence).
  Qed.
  Lemma own_key_own (a : addon) : own_key pr a = true <-> own_mod pr a.
  Proof.
    unfold own_key, own_mod. destruct (loc a); cbn [same_location andb]; [split; [discriminate|intros [? _]; congruence]|].
    split; [auto|now intros [_ H]].
  Qed.
  Lemma stem_name (a : addon) : no_dot (p_prefix pr) -> no_dot (name a) -> stem (pbo_name (p_prefix pr) a) ++ bs ".pbo" = pbo_file pr a.
  Proof.
    intros P Na. rewrite stem_no_dot; [|unfold pbo_name; rewrite !no_dot_app; repeat split; auto; intros [X|[]]; discriminate].
    unfold pbo_name, pbo_file. change (bs "_") with [95]. now rewrite <- !app_assoc.
  Qed.
  Lemma pbo_place_iff (a : addon) p : no_dot (p_prefix pr) -> no_dot (name a) -> pbo_place pr a p <-> p = target_pbo pr false a.
  Proof.
    intros P Na. rewrite target_pbo_is, stem_name by auto.
    assert (K : pbo_place pr a (AddonProps.folder_of pr false a ++ [pbo_file pr a])).
    { unfold AddonProps.folder_of. destruct (loc a) eqn:L.
      - apply (a_pbo_place pr a [] (bs "addons")); [right; split; [|reflexivity]; intros [? _]; congruence|left; auto].
      - destruct (optional_mod_folders pr) eqn:O.
        + change ([bs "optionals"; [64] ++ pbo_name (release_folder pr) a; bs "addons"] ++ [pbo_file pr a]) with
            ([bs "optionals"; [64] ++ pbo_name (release_folder pr) a] ++ [bs "addons"; pbo_file pr a]).
          apply a_pbo_place; [left; split; [now split|reflexivity]|left; auto].
        + apply (a_pbo_place pr a [] (bs "optionals")); [right; split; [|reflexivity]; intros [_ ?]; congruence|right; auto]. }
    split; [|now intros ->]. intros H. destruct H as [f s F S]. inversion K as [f' s' F' S' Q].
    assert (f = f') as <- by (destruct F as [(? & ->)|(? & ->)], F' as [(? & ->)|(? & ->)]; tauto || reflexivity).
    assert (s = s') as <- by (destruct S as [([?|?] & ->)|((? & ?) & ->)], S' as [([?|?] & ->)|((? & ?) & ->)]; congruence || reflexivity). exact Q.
  Qed.
  Lemma mod_folder_fun (a : addon) f f' : mod_folder pr a f -> mod_folder pr a f' -> f = f'.
  Proof. intros [(? & ->)|(? & ->)] [(? & ->)|(? & ->)]; tauto || reflexivity. Qed.
  Lemma subfolder_fun (a : addon) s s' : subfolder pr a s -> subfolder pr a s' -> s = s'.
  Proof. intros [([?|?] & ->)|((? & ?) & ->)] [([?|?] & ->)|((? & ?) & ->)]; congruence || reflexivity. Qed.
  Lemma key_name_fun v (a : addon) k o k' o' : key_name pr au v a k o -> key_name pr au v a k' o' -> k = k' /\ o = o'.
  Proof. intros [N|N] [N'|N']; tauto || auto. Qed.
  Lemma mod_folder_ex (a : addon) : exists f, mod_folder pr a f.
  Proof. destruct (own_mod_dec a) as [H|H]; eexists; [left|right]; eauto. Qed.
  Lemma subfolder_ex (a : addon) : exists s, subfolder pr a s.
  Proof.
    destruct (loc a) eqn:L; [eexists; left; eauto|]. destruct (optional_mod_folders pr) eqn:O; eexists; [left|right]; eauto.
  Qed.
  Lemma sign_pbo_key v (a : addon) : exists o, key_name pr au v a (snd (sign_pbo pr au v a)) o /\ (own_mod pr a -> o = Some (name a)) /\ (~ own_mod pr a -> o = None).
  Proof.
    unfold sign_pbo, get_authority. destruct (loc a) eqn:L.
    - exists None. rewrite app_nil_r. split; [apply common_key; intros [? _]; congruence|]. split; [intros [? _]; congruence|reflexivity].
    - destruct (optional_mod_folders pr) eqn:O; cbn [snd].
      + exists (Some (name a)). unfold pbo_name. split; [now apply own_key_|]. split; [reflexivity|]. intros H. exfalso. apply H. now split.
      + exists None. rewrite app_nil_r. split; [apply common_key; intros [_ ?]; congruence|]. split; [intros [_ ?]; congruence|reflexivity].
  Qed.
  Lemma sig_place_iff v (a : addon) p : no_dot (p_prefix pr) -> no_dot (name a) -> sig_place pr au v a p <-> p = sig_location pr au v a.
  Proof.
    intros P Na. pose proof (C54_signs_what_was_built D pr au v a) as S. destruct (sign_pbo pr au v a) as [t k] eqn:E. destruct S as (T & folder & file & F & ->).
    destruct (sign_pbo_key v a) as (o & K & _). rewrite E in K. cbn [snd] in K.
    destruct (mod_folder_ex a) as (f & MF). destruct (subfolder_ex a) as (s & SF).
    assert (T' : f ++ [s; pbo_file pr a] = folder ++ [file]) by (rewrite <- F, T; apply (pbo_place_iff a _ P Na); now constructor).
    change [s; pbo_file pr a] with ([s] ++ [pbo_file pr a]) in T'. rewrite app_assoc in T'. apply app_inj_tail in T' as [<- <-].
    assert (G : forall x, (f ++ [s]) ++ [x] = f ++ [s; x]) by (intros; now rewrite <- app_assoc). rewrite G.
    split; [|intros ->; now apply a_sig_place with o]. intros [f' s' k' o' MF' SF' K'].
    rewrite (mod_folder_fun a f' f MF' MF), (subfolder_fun a s' s SF' SF). destruct (key_name_fun v a k' o' k o K' K) as (-> & _). reflexivity.
  Qed.
  Lemma key_place_iff v (a : addon) p : key_place pr au v a p <-> p = key_location pr au v a.
  Proof.
    assert (K : key_place pr au v a (key_location pr au v a)).
    { unfold key_location, get_authority. destruct (loc a) eqn:L.
      - rewrite app_nil_r. apply (a_key_place pr au v a [] (au ++ [95] ++ v) None); [right; split; [|reflexivity]|apply common_key]; intros [? _]; congruence.
      - destruct (optional_mod_folders pr) eqn:O.
        + apply (a_key_place pr au v a [_; _] _ (Some (name a))); [left; split; [now split|reflexivity]|]. now apply own_key_.
        + rewrite app_nil_r. apply (a_key_place pr au v a [] (au ++ [95] ++ v) None); [right; split; [|reflexivity]|apply common_key]; intros [_ ?]; congruence. }
    split; [|now intros ->]. intros [f k o F N]. inversion K as [f' k' o' F' N' Q]. rewrite (mod_folder_fun a f f' F F'). destruct (key_name_fun v a _ _ _ _ N N') as (-> & _). first [exact Q|reflexivity].
  Qed.
End Places.

(** ** Patterns *)
Lemma spelled_iff p s : spelled p s <-> s = as_str p.
Proof.
  split.
  - induction 1 as [|n p s H IH]; [reflexivity|]. subst s. reflexivity.
  - intros ->. induction p as [|n p IH]; [constructor|]. exact (spelled_cons n p _ IH).
Qed.
Lemma dedup_in : forall l x, In x (dedup l) <-> In x l.
Proof.
  induction l as [|a l IH]; intros x; [reflexivity|]. destruct l as [|b r]; [reflexivity|].
  change (In x (if eqb_bytes a b then dedup (b :: r) else a :: dedup (b :: r)) <-> In x (a :: b :: r)). destruct (eqb_bytes a b) eqn:E.
  - apply eqb_bytes_spec in E as ->. rewrite IH. cbn [In]. tauto.
  - change (a = x \/ In x (dedup (b :: r)) <-> In x (a :: b :: r)). rewrite IH. reflexivity.
Qed.
Lemma include_pattern given q : In q (include_of given) <-> pattern given q.
Proof.
  unfold include_of, pattern. rewrite dedup_in.
  assert (P : forall x, In x (sort_by (fun s => s) (map rooted given ++ usual)) <-> In x (map rooted given ++ usual)).
  { intros x. split; apply Permutation_in; [|symmetry]; apply sort_by_perm. }
  rewrite P, in_app_iff, in_map_iff. fold usual. unfold rooted. split.
  - intros [(g & Q & I)|I]; [right|now left]. exists g. split; [exact I|]. destruct (starts_with [47] g) eqn:S.
    + left. split; [congruence|]. apply starts_with_spec in S as (r & ->). now exists r.
    + right. split; [symmetry; exact Q|]. intros (r & ->). discriminate.
  - intros [I|(g & I & [(-> & r & ->)|(-> & H)])]; [now right| |]; left; (eexists; split; [|exact I]); [reflexivity|].
    destruct (starts_with [47] g) eqn:S; [|reflexivity]. apply starts_with_spec in S as (r & ->). exfalso. apply H. now exists r.
Qed.
Lemma patterns_in glob : forall l ms, BinarizeModel.patterns glob l = Some ms -> forall m, In m ms <-> exists q, In q l /\ glob q = Some m.
Proof.
  induction l as [|q l IH]; intros ms H m; cbn [BinarizeModel.patterns] in H.
  - injection H as <-. split; [contradiction|]. now intros (? & [] & _).
  - destruct (glob q) as [g|] eqn:G; [|discriminate]. destruct (BinarizeModel.patterns glob l) as [ms'|]; [|discriminate]. injection H as <-. cbn [In]. rewrite (IH ms' eq_refl m). split.
    + intros [<-|(r & I & Q)]; eauto.
    + intros (r & [<-|I] & Q); [left; congruence|eauto].
Qed.

Section Copy.
  Context {D R E C key : Type} (glob : bytes -> option (bytes -> bool)) (given : list bytes).
  Notation inputs := (inputs R).
  Lemma content_holds (i : inputs) p b : kept_well i -> (content p i = Some b <-> holds i p b).
  Proof.
    intros (Np & Nl). unfold content, holds. destruct (look p (layered i)) as [b1|] eqn:L.
    - apply (look_in p b1 _ Nl) in L. split.
      + intros [= <-]. now left.
      + intros [H|(_ & H)]; [|exfalso; eapply H; eauto]. apply (look_in p b1 _ Nl) in L. apply (look_in p b _ Nl) in H. congruence.
    - rewrite (look_in p b _ Np). apply look_none in L. split.
      + intros H. right. split; [exact H|]. intros b' X. apply L. now apply (in_map fst) in X.
      + intros [H|(H & _)]; [|exact H]. exfalso. apply L. now apply (in_map fst) in H.
  Qed.
  Lemma walk_content (i : inputs) p : In p (walk i) <-> exists b, content p i = Some b.
  Proof.
    unfold walk, content. rewrite in_app_iff, filter_In. destruct (look p (layered i)) as [b|] eqn:L.
    - split; [eauto|]. intros _. left. destruct (in_dec path_dec p (map fst (layered i))) as [I|I]; [exact I|]. apply look_none in I. congruence.
    - apply look_none in L. destruct (look p (physical i)) as [b|] eqn:Q.
      + split; [eauto|]. intros _. right. split; [|reflexivity]. destruct (in_dec path_dec p (map fst (physical i))) as [I|I]; [exact I|]. apply look_none in I. congruence.
      + apply look_none in Q. split; [tauto|]. intros (b & X). discriminate.
  Qed.
  Lemma chosen_iff (i : inputs) ms p b : kept_well i -> BinarizeModel.patterns glob (include_of given) = Some ms ->
    chosen glob given i p b <-> In p (filter (wanted ms) (walk i)) /\ content p i = Some b.
  Proof.
    intros W P. unfold chosen. rewrite filter_In, walk_content, <- (content_holds i p b W). unfold wanted. rewrite andb_true_iff, negb_true_iff, existsb_exists.
    split.
    - intros (H & s & S & Hh & q & m & Q & G & M). apply spelled_iff in S as ->. split; [|exact H]. split; [eauto|]. split.
      + destruct (starts_with (bs "/.hemtt") (as_str p)) eqn:X; [|reflexivity]. apply starts_with_spec in X. contradiction.
      + exists m. split; [|exact M]. apply (patterns_in glob _ _ P). exists q. split; [now apply include_pattern|exact G].
    - intros ((_ & Hh & m & I & M) & H). split; [exact H|]. exists (as_str p). split; [now apply spelled_iff|]. split.
      + intros X. apply starts_with_spec in X. congruence.
      + apply (patterns_in glob _ _ P) in I as (q & I & G). apply include_pattern in I. eauto 6.
  Qed.

  (** Copying, if no link is on the way. *)
  Definition clear_way (o : list (path * node)) (ps : list path) : Prop := forall p, In p ps -> through o p = None.
  Lemma through_file o p : (forall q t, In (q, Link t) o -> strip q p = None) -> through o p = None.
  Proof.
    induction o as [|[q [b|t]] o IH]; intros H; cbn [through]; [reflexivity| |].
    - apply IH. intros r t I. apply (H r t). now right.
    - rewrite (H q t (or_introl eq_refl)). apply IH. intros r t' I. apply (H r t'). now right.
  Qed.
  Lemma through_none o p : through o p = None -> forall q t, In (q, Link t) o -> strip q p = None.
  Proof.
    induction o as [|[q [b|t]] o IH]; cbn [through]; intros H r t' I; [contradiction| |].
    - destruct I as [I|I]; [discriminate|]. now apply (IH H r t').
    - destruct (strip q p) eqn:S; [discriminate|]. destruct I as [[= <- <-]|I]; [exact S|]. now apply (IH H r t').
  Qed.
  Lemma put_links {A} q (b : A) o r x : In (r, x) (put q b o) -> (r, x) = (q, b) \/ In (r, x) o.
  Proof. unfold put. intros [H|H]; [left; congruence|right]. now apply filter_In in H as (H & _). Qed.
  Lemma copy_all : forall ps (w : world R), clear_way (out w) ps -> (forall p, In p ps -> exists b, content p (from w) = Some b) ->
    let w' := fold_left (fun w p => copy_file p w) ps w in
    from w' = from w /\ releases w' = releases w /\
    (forall q t, In (q, Link t) (out w') -> In (q, Link t) (out w)) /\
    (NoDup (map fst (out w)) -> NoDup (map fst (out w'))) /\
    forall p, look p (out w') = if in_dec path_dec p ps then match content p (from w) with Some b => Some (File b) | None => None end else look p (out w).
  Proof.
    induction ps as [|q ps IH]; intros w Cw Hc; cbn [fold_left]; cbv zeta.
    - split; [reflexivity|]. split; [reflexivity|]. split; [auto|]. split; [auto|]. intros p. destruct (in_dec path_dec p []) as [[]|]. reflexivity.
    - destruct (Hc q (or_introl eq_refl)) as (b & B).
      assert (Q : copy_file q w = with_out (put q (File b) (out w)) w) by (unfold copy_file; rewrite B, (Cw q (or_introl eq_refl)); reflexivity).
      rewrite Q. destruct (IH (with_out (put q (File b) (out w)) w)) as (F & Rl & Lk & Nd & Lo).
      + intros p I. cbn [with_out out]. apply through_file. intros r t X. apply put_links in X as [X|X]; [discriminate|]. apply (through_none (out w) p (Cw p (or_intror I)) r t X).
      + intros p I. cbn [with_out from]. apply Hc. now right.
      + cbn [with_out from releases out] in F, Rl, Lk, Nd, Lo. split; [exact F|]. split; [exact Rl|]. split.
        { intros r t X. apply Lk in X. apply put_links in X as [X|X]; [discriminate|exact X]. }
        split; [intros N; apply Nd; now apply put_keys|].
        intros p. rewrite Lo. destruct (in_dec path_dec p ps) as [I|I].
        * destruct (in_dec path_dec p (q :: ps)) as [I2|I2]; [reflexivity|exfalso; apply I2; now right].
        * destruct (path_dec p q) as [->|H].
          -- rewrite look_put_same. destruct (in_dec path_dec q (q :: ps)) as [I2|I2]; [now rewrite B|exfalso; apply I2; now left].
          -- rewrite look_put_other by auto. destruct (in_dec path_dec p (q :: ps)) as [[I2|I2]|I2]; [congruence|contradiction|reflexivity].
  Qed.
  Context (bad_pattern : E).
  Lemma copy_step_ok (w w' : world R) codes : kept_well (from w) ->
    (forall p b, chosen glob given (from w) p b -> through (out w) p = None) ->
    copy_step (C := C) glob (include_of given) bad_pattern w = (w', Ok codes) ->
    from w' = from w /\ releases w' = releases w /\ (forall q t, In (q, Link t) (out w') -> In (q, Link t) (out w)) /\
    (NoDup (map fst (out w)) -> NoDup (map fst (out w'))) /\
    forall p n, look p (out w') = Some n <->
      (exists b, chosen glob given (from w) p b /\ n = File b) \/ (~ exists b, chosen glob given (from w) p b) /\ look p (out w) = Some n.
  Proof.
    intros W T H. unfold copy_step in H. destruct (BinarizeModel.patterns glob (include_of given)) as [ms|] eqn:P; [|discriminate].
    injection H as <- _. destruct (copy_all (filter (wanted ms) (walk (from w))) w) as (F & Rl & Lk & Nd & Lo).
    - intros p I. apply filter_In in I as (I & Wt). apply walk_content in I as (b & B). apply (T p b). apply (chosen_iff _ ms); auto. split; [|exact B].
      apply filter_In. split; [apply walk_content; eauto|exact Wt].
    - intros p I. apply filter_In in I as (I & _). now apply walk_content in I.
    - split; [exact F|]. split; [exact Rl|]. split; [exact Lk|]. split; [exact Nd|]. intros p n. rewrite Lo. destruct (in_dec path_dec p _) as [I|I].
      + assert (I' := I). apply filter_In in I' as (I' & _). apply walk_content in I' as (b & B). rewrite B.
        assert (Cb : chosen glob given (from w) p b) by (apply (chosen_iff _ ms); auto).
        split; [intros [= <-]; left; eauto|]. intros [(b' & Cb' & ->)|(Hn & _)]; [|exfalso; apply Hn; eauto].
        apply (chosen_iff _ ms) in Cb' as (_ & B'); auto. congruence.
      + assert (Hn : ~ exists b, chosen glob given (from w) p b) by (intros (b & Cb); apply (chosen_iff _ ms) in Cb as (I' & _); auto).
        split; [intros H; right; auto|]. intros [(b & Cb & _)|(_ & H)]; [exfalso; eauto|exact H].
  Qed.
End Copy.

(** ** PBOs, keys and signatures *)
Section Made.
  Context {D R E C key : Type} (pr : project) (pbo_of : inputs R -> addon D -> bytes + E) (version_of : inputs R -> bytes + E).
  Context (au : bytes) (keygen : option bytes -> bytes -> key) (public : key -> bytes) (sign : key -> bytes -> bytes + E) (not_found : E).
  Notation addon := (addon D).
  Notation world := (world R).
  Definition no_dots (l : list addon) : Prop := no_dot (p_prefix pr) /\ Forall (fun a => no_dot (name a)) l.

  Lemma file_name_inj (a b : addon) x y : no_dot (name a) -> no_dot (name b) -> p_prefix pr ++ bs "_" ++ name a ++ 46 :: x = p_prefix pr ++ bs "_" ++ name b ++ 46 :: y -> name a = name b.
  Proof.
    intros Ha Hb Q. apply app_inv_head in Q. apply app_inv_head in Q. revert Hb Q. generalize (name b) as m. clear b. revert Ha. generalize (name a) as n. clear a.
    induction n as [|c n IH]; intros Hn [|d m] Hm Q; cbn [app] in Q.
    - reflexivity.
    - injection Q as Q _. exfalso. apply Hm. left. congruence.
    - injection Q as Q _. exfalso. apply Hn. left. congruence.
    - injection Q as -> Q. f_equal. apply IH; [intros X; apply Hn; now right|intros X; apply Hm; now right|exact Q].
  Qed.
  Lemma target_inj c (a b : addon) : no_dot (p_prefix pr) -> no_dot (name a) -> no_dot (name b) -> target_pbo pr c a = target_pbo pr c b -> name a = name b.
  Proof.
    intros P Ha Hb Q. rewrite !target_pbo_is, !stem_name in Q by auto. apply app_inj_tail in Q as [_ Q]. unfold pbo_file in Q. change (bs ".pbo") with (46 :: bs "pbo") in Q. now apply file_name_inj in Q.
  Qed.
  Lemma in_name_eq (l : list addon) a b : NoDup (map name l) -> In a l -> In b l -> name a = name b -> a = b.
  Proof.
    induction l as [|c l IH]; intros N Ia Ib Q; [contradiction|]. cbn [map] in N. inversion N as [|? ? N1 N2]; subst.
    destruct Ia as [->|Ia], Ib as [->|Ib]; [reflexivity| | |now apply IH]; exfalso; apply N1; [rewrite Q|rewrite <- Q]; now apply in_map.
  Qed.
  Lemma build_all_ok c : forall l (w w' : world) codes, no_dots l -> NoDup (map name l) -> build_all pr pbo_of c l w = (w', Ok (C := C) codes) ->
    from w' = from w /\ releases w' = releases w /\ (forall q t, In (q, Link t) (out w') -> In (q, Link t) (out w)) /\ (NoDup (map fst (out w)) -> NoDup (map fst (out w'))) /\
    (forall a, In a l -> exists b, pbo_of (from w) a = inl b) /\
    forall p n, look p (out w') = Some n <->
      (exists a b, In a l /\ p = target_pbo pr c a /\ pbo_of (from w) a = inl b /\ n = File b) \/ (forall a, In a l -> p <> target_pbo pr c a) /\ look p (out w) = Some n.
  Proof.
    induction l as [|a l IH]; intros w w' codes (P & Fd) N H; cbn [build_all] in H.
    - injection H as <- _. split; [auto|]. split; [auto|]. split; [auto|]. split; [auto|]. split; [intros a []|]. intros p n. split; [intros X; right; split; [intros a []|exact X]|]. intros [(a & b & [] & _)|(_ & X)]. exact X.
    - destruct (pbo_of (from w) a) as [b|e] eqn:B; [|discriminate]. cbn [map] in N. inversion N as [|? ? N1 N2]; subst. inversion Fd as [|? ? Fa Fl]; subst.
      destruct (IH _ _ _ (conj P Fl) N2 H) as (F & Rl & Lk & Nd & Bs & Lo). cbn [with_out from releases out] in F, Rl, Lk, Nd, Bs, Lo.
      split; [exact F|]. split; [exact Rl|]. split; [intros q t I; apply Lk in I; apply put_links in I as [I|I]; [discriminate|exact I]|]. split; [intros X; apply Nd; now apply put_keys|].
      split; [intros a' [<-|I]; eauto|].
      assert (T : forall a', In a' l -> target_pbo pr c a <> target_pbo pr c a').
      { intros a' I Q. apply N1. apply target_inj in Q; auto; [rewrite Q; now apply in_map|]. rewrite Forall_forall in Fl. now apply Fl. }
      intros p n. rewrite Lo. split.
      + intros [(a' & b' & I & -> & B' & ->)|(Hn & X)]; [left; exists a', b'; split; [now right|auto]|].
        destruct (path_dec p (target_pbo pr c a)) as [->|Hp].
        * rewrite look_put_same in X. injection X as <-. left. exists a, b. split; [now left|auto].
        * rewrite look_put_other in X by auto. right. split; [|exact X]. intros a' [<-|I]; auto.
      + intros [(a' & b' & [<-|I] & -> & B' & ->)|(Hn & X)].
        * right. split; [exact T|]. rewrite look_put_same. congruence.
        * left. exists a', b'. auto.
        * right. split; [intros a' I; apply Hn; now right|]. rewrite look_put_other; [exact X|]. apply Hn. now left.
  Qed.

  (** The three kinds of files end in different letters. *)
  Definition ending (p : path) : byte := last (last p []) 0.
  Lemma ending_app f x s c : ending (f ++ [x ++ s ++ [c]]) = c.
  Proof. unfold ending. rewrite last_last, app_assoc. apply last_last. Qed.
  Lemma target_ending c (a : addon) : ending (target_pbo pr c a) = 111.
  Proof. rewrite target_pbo_is. apply (ending_app _ _ [46; 112; 98] 111). Qed.
  Lemma sig_parts v (a : addon) : no_dot (p_prefix pr) -> no_dot (name a) -> exists f s k, sig_location pr au v a = f ++ [s; pbo_file pr a ++ bs "." ++ k ++ bs ".bisign"].
  Proof. intros P Na. pose proof (proj2 (sig_place_iff pr au v a _ P Na) eq_refl) as H. destruct H as [f s k o]. now exists f, s, k. Qed.
  Lemma sig_ending v (a : addon) : ending (sig_location pr au v a) = 110.
  Proof.
    pose proof (C54_signs_what_was_built D pr au v a) as S. destruct (sign_pbo pr au v a) as [t k]. destruct S as (_ & f & x & _ & ->).
    rewrite !app_assoc. apply (ending_app _ _ [46; 98; 105; 115; 105; 103] 110).
  Qed.
  Lemma key_ending v (a : addon) : ending (key_location pr au v a) = 121.
  Proof. destruct (C54_key_beside D pr au v a) as (f & -> & _). change [bs "keys"; ?x] with ([bs "keys"] ++ [x]). rewrite app_assoc. apply (ending_app _ _ [46; 98; 105; 107; 101] 121). Qed.
  Lemma sig_inj v (a b : addon) : no_dot (p_prefix pr) -> no_dot (name a) -> no_dot (name b) -> sig_location pr au v a = sig_location pr au v b -> name a = name b.
  Proof.
    intros P Ha Hb Q. destruct (sig_parts v a P Ha) as (f & s & k & Qa). destruct (sig_parts v b P Hb) as (f' & s' & k' & Qb). rewrite Qa, Qb in Q.
    change [s; ?x] with ([s] ++ [x]) in Q. change [s'; ?x] with ([s'] ++ [x]) in Q. rewrite !(app_assoc _ [_] [_]) in Q. apply app_inj_tail in Q as [_ Q].
    unfold pbo_file in Q. rewrite <- !app_assoc in Q. change (bs ".pbo" ++ ?x) with (46 :: bs "pbo" ++ x) in Q. now apply file_name_inj in Q.
  Qed.
  Lemma own_key_location v (a : addon) : own_key pr a = true -> exists k, key_location pr au v a = [bs "optionals"; [64] ++ pbo_name (release_folder pr) a; bs "keys"; k].
  Proof. intros H. apply own_key_own in H as (L & O). unfold key_location. rewrite L, O. eauto. Qed.
  Lemma own_key_inj v (a b : addon) : own_key pr a = true -> own_key pr b = true -> key_location pr au v a = key_location pr au v b -> name a = name b.
  Proof.
    intros Ha Hb Q. destruct (own_key_location v a Ha) as (k & Ka). destruct (own_key_location v b Hb) as (k' & Kb). rewrite Ka, Kb in Q.
    assert (X : [64] ++ pbo_name (release_folder pr) a = [64] ++ pbo_name (release_folder pr) b) by congruence. apply app_inv_head in X. unfold pbo_name in X. now apply app_inv_head in X; apply app_inv_head in X.
  Qed.
  Lemma sign_target v (a : addon) : fst (sign_pbo pr au v a) = target_pbo pr false a.
  Proof. pose proof (C54_signs_what_was_built D pr au v a) as S. destruct (sign_pbo pr au v a) as [t k]. now destruct S. Qed.
  Notation key_for := (key_for pr au keygen).
  Lemma key_for_name v (a : addon) k o : key_name pr au v a k o -> key_for v a = keygen o k.
  Proof.
    unfold OutputModel.key_for. intros [H|H].
    - destruct (own_key pr a) eqn:O; [apply own_key_own in O; contradiction|]. unfold get_authority. now rewrite app_nil_r.
    - rewrite (proj2 (own_key_own pr a) H). reflexivity.
  Qed.

  Lemma sign_all_ok v : forall l (w w' : world) codes, no_dots l -> NoDup (map name l) -> sign_all pr au keygen public sign not_found v l w = (w', Ok (C := C) codes) ->
    from w' = from w /\ releases w' = releases w /\ (forall q t, In (q, Link t) (out w') -> In (q, Link t) (out w)) /\ (NoDup (map fst (out w)) -> NoDup (map fst (out w'))) /\
    (forall a, In a l -> exists b s, look (target_pbo pr false a) (out w) = Some (File b) /\ sign (key_for v a) b = inl s) /\
    forall p n, look p (out w') = Some n <->
      (exists a, In a l /\ own_key pr a = true /\ p = key_location pr au v a /\ n = File (public (key_for v a))) \/
      (exists a b s, In a l /\ look (target_pbo pr false a) (out w) = Some (File b) /\ sign (key_for v a) b = inl s /\ p = sig_location pr au v a /\ n = File s) \/
      (forall a, In a l -> ~ (own_key pr a = true /\ p = key_location pr au v a) /\ p <> sig_location pr au v a) /\ look p (out w) = Some n.
  Proof.
    induction l as [|a l IH]; intros w w' codes (P & Fd) N H; cbn [sign_all] in H.
    - injection H as <- _. split; [auto|]. split; [auto|]. split; [auto|]. split; [auto|]. split; [intros a []|]. intros p n. split; [intros X; right; right; split; [intros a []|exact X]|].
      intros [(a & [] & _)|[(a & b & s & [] & _)|(_ & X)]]. exact X.
    - cbv zeta in H. rewrite sign_target in H.
      set (o := if own_key pr a then put (key_location pr au v a) (File (public (key_for v a))) (out w) else out w) in H.
      assert (Oe : forall p, p <> key_location pr au v a -> look p o = look p (out w)) by (intros p Hp; unfold o; destruct (own_key pr a); [now apply look_put_other|reflexivity]).
      assert (On : own_key pr a = false -> o = out w) by (intros X; unfold o; now rewrite X).
      assert (Oy : own_key pr a = true -> look (key_location pr au v a) o = Some (File (public (key_for v a)))) by (intros X; unfold o; rewrite X; apply look_put_same).
      assert (Ol : forall q t, In (q, Link t) o -> In (q, Link t) (out w)) by (intros q t; unfold o; destruct (own_key pr a); [intros I; apply put_links in I as [I|I]; [discriminate|exact I]|auto]).
      assert (Ond : NoDup (map fst (out w)) -> NoDup (map fst o)) by (intros X; unfold o; destruct (own_key pr a); [now apply put_keys|exact X]).
      clearbody o.
      assert (TK : forall x y : addon, target_pbo pr false x <> key_location pr au v y) by (intros x y Q; apply (f_equal ending) in Q; rewrite target_ending, key_ending in Q; discriminate).
      assert (TS : forall x y : addon, target_pbo pr false x <> sig_location pr au v y) by (intros x y Q; apply (f_equal ending) in Q; rewrite target_ending, sig_ending in Q; discriminate).
      assert (KS : forall x y : addon, key_location pr au v x <> sig_location pr au v y) by (intros x y Q; apply (f_equal ending) in Q; rewrite key_ending, sig_ending in Q; discriminate).
      rewrite (Oe (target_pbo pr false a) (TK a a)) in H. destruct (look (target_pbo pr false a) (out w)) as [[b|]|] eqn:La; try discriminate.
      destruct (sign (key_for v a) b) as [s|e] eqn:Sa; [|discriminate]. cbn [map] in N. inversion N as [|? ? N1 N2]; subst. inversion Fd as [|? ? Fa Fl]; subst.
      destruct (IH _ _ _ (conj P Fl) N2 H) as (F & Rl & Lk & Nd & Bs & Lo). cbn [with_out from releases out] in F, Rl, Lk, Nd, Bs, Lo.
      assert (Lt : forall x : addon, look (target_pbo pr false x) (put (sig_location pr au v a) (File s) o) = look (target_pbo pr false x) (out w)) by (intros x; now rewrite look_put_other, Oe by auto).
      assert (Nk : forall x, In x l -> own_key pr a = true -> own_key pr x = true -> key_location pr au v a <> key_location pr au v x).
      { intros x I Oa Ox Q. apply own_key_inj in Q; auto. apply N1. rewrite Q. now apply in_map. }
      assert (Ns : forall x, In x l -> sig_location pr au v a <> sig_location pr au v x).
      { intros x I Q. apply sig_inj in Q; auto; [apply N1; rewrite Q; now apply in_map|]. rewrite Forall_forall in Fl. now apply Fl. }
      split; [exact F|]. split; [exact Rl|]. split; [intros q t I; apply Lk in I; apply put_links in I as [I|I]; [discriminate|auto]|]. split; [intros X; apply Nd; apply put_keys; auto|].
      split. { intros x [<-|I]; [eauto|]. destruct (Bs x I) as (b' & s' & B' & S'). rewrite Lt in B'. eauto. }
      intros p n. rewrite Lo. split.
      + intros [(x & I & O & -> & ->)|[(x & b' & s' & I & B' & S' & -> & ->)|(Hn & X)]].
        * left. exists x. split; [now right|auto].
        * right. left. exists x, b', s'. rewrite Lt in B'. split; [now right|auto].
        * destruct (path_dec p (sig_location pr au v a)) as [->|Hs].
          { rewrite look_put_same in X. injection X as <-. right. left. exists a, b, s. split; [now left|auto]. }
          rewrite look_put_other in X by auto. destruct (own_key pr a) eqn:O.
          -- destruct (path_dec p (key_location pr au v a)) as [->|Hk].
             ++ rewrite (Oy eq_refl) in X. injection X as <-. left. exists a. split; [now left|auto].
             ++ rewrite Oe in X by auto. right. right. split; [|exact X]. intros x [<-|I]; [|now apply Hn]. split; [intros [_ Q]; auto|auto].
          -- rewrite (On eq_refl) in X. right. right. split; [|exact X]. intros x [<-|I]; [|now apply Hn]. split; [intros [Q _]; congruence|auto].
      + intros [(x & [<-|I] & O & -> & ->)|[(x & b' & s' & [<-|I] & B' & S' & -> & ->)|(Hn & X)]].
        * right. right. split; [intros x I; split; [intros [Ox Q]; exact (Nk x I O Ox Q)|apply KS]|]. rewrite look_put_other by auto. auto.
        * left. exists x. auto.
        * right. right. split; [intros x I; split; [intros [_ Q]; symmetry in Q; exact (KS _ _ Q)|now apply Ns]|]. rewrite look_put_same. congruence.
        * right. left. exists x, b', s'. rewrite Lt. auto.
        * right. right. split; [intros x I; apply Hn; now right|]. destruct (Hn a (or_introl eq_refl)) as (Hk & Hs). rewrite look_put_other by auto.
          destruct (own_key pr a) eqn:O; [rewrite Oe by (intros Q; apply Hk; auto); exact X|]. now rewrite (On eq_refl).
  Qed.
End Made.

(** ** Runs *)
Section Split.
  Context {W E C M : Type} (severity_of : C -> severity) (act : step M -> W -> W * result E C).
  Notation runs := (runs severity_of act).
  Notation has_error := (has_error severity_of).
  Lemma error_app a b : ~ has_error (a ++ b) -> ~ has_error a /\ ~ has_error b.
  Proof. intros H. split; intros (c & I & S); apply H; exists c; (split; [apply in_or_app; auto|exact S]). Qed.
  Lemma runs_split : forall a s b w did w' codes, runs (a ++ s :: b) w did w' (Ok codes) -> ~ has_error codes ->
    exists w1 w2 c1 c2 c3, runs a w a w1 (Ok c1) /\ ~ has_error c1 /\ act s w1 = (w2, Ok c2) /\ ~ has_error c2 /\ runs b w2 b w' (Ok c3) /\ ~ has_error c3.
  Proof.
    induction a as [|x a IH]; intros s b w did w' codes H Hn; cbn [app] in H.
    - inversion H as [|? ? ? ? ? ? |? ? ? ? ? ? ?|s0 ss w0 w1 c did' w'' r A Hc Rr]; subst; [contradiction|]. destruct r as [more|]; [|discriminate]. match goal with X : Ok _ = Ok _ |- _ => injection X as <- end.
      apply error_app in Hn as (H1 & H2). rewrite (runs_not_failed_all severity_of _ _ _ _ _ _ Rr H2) in Rr || idtac.
      exists w, w1, [], c, more. split; [constructor|]. split; [intros (? & [] & _)|]. split; [exact A|]. split; [exact H1|]. split; [|exact H2].
      assert (Q : did' = b); [|now rewrite <- Q at 2].
      clear - Rr H2. remember (Ok more) as r0 eqn:E0. revert more E0 H2. induction Rr; intros more0 E0 Hn; auto; try discriminate.
      + injection E0 as <-. contradiction.
      + destruct r as [m2|]; [|discriminate]. injection E0 as <-. f_equal. apply error_app in Hn as (_ & Hn). now apply (IHRr m2 eq_refl).
    - inversion H as [|? ? ? ? ? ? |? ? ? ? ? ? ?|s0 ss w0 w1 c did' w'' r A Hc Rr]; subst; [contradiction|]. destruct r as [more|]; [|discriminate]. match goal with X : Ok _ = Ok _ |- _ => injection X as <- end.
      apply error_app in Hn as (H1 & H2). destruct (IH _ _ _ _ _ _ Rr H2) as (w3 & w4 & c1 & c2 & c3 & Ra & N1 & B & N2 & Rb & N3).
      exists w3, w4, (c ++ c1), c2, c3. split; [exact (runs_next severity_of act x a w w1 c a w3 (Ok c1) A Hc Ra)|]. split; [|auto].
      intros (y & I & S). apply in_app_or in I as [I|I]; [apply H1|apply N1]; exists y; auto.
  Qed.
  Lemma runs_keep (P : W -> W -> Prop) : (forall w, P w w) -> (forall a b c, P a b -> P b c -> P a c) ->
    forall ss w did w' r, (forall s w w' r, In s ss -> act s w = (w', r) -> P w w') -> runs ss w did w' r -> P w w'.
  Proof.
    intros Pr Pt ss w did w' r H Rn. induction Rn as [|s ss w w' e A|s ss w w' c A B|s ss w w' c did w'' r A B Rn IH].
    - apply Pr.
    - exact (H s w w' _ (or_introl eq_refl) A).
    - exact (H s w w' _ (or_introl eq_refl) A).
    - eapply Pt; [exact (H s w w' _ (or_introl eq_refl) A)|]. apply IH. intros s' w1 w2 r' I. apply (H s' w1 w2 r'). now right.
  Qed.
End Split.

Definition quiet (s : step module) : bool :=
  match s with
  | BuildPbos | MakeArchive | Phase Files PostBuild | Phase FilePatching PreBuild | Phase Sign PreRelease => false
  | _ => true
  end.
Fixpoint span (l : list (step module)) : list (step module) * list (step module) :=
  match l with
  | [] => ([], [])
  | s :: r => if quiet s then let '(a, b) := span r in (s :: a, b) else ([], l)
  end.
Definition signing (no_sign sign : bool) : list (step module) := if negb no_sign && sign then [Phase Sign PreRelease] else [].
Definition archiving (no_archive archive : bool) : list (step module) := if (if no_archive then false else archive) then [MakeArchive] else [].
Lemma release_steps nr nb ns na sg ar : exists A B Cc Dd F,
  steps (release_command nr nb ns na sg ar) = A ++ BuildPbos :: B ++ Phase Files PostBuild :: Cc ++ signing ns sg ++ Dd ++ archiving na ar ++ F /\
  forallb quiet A = true /\ forallb quiet B = true /\ forallb quiet Cc = true /\ forallb quiet Dd = true /\ forallb quiet F = true.
Proof.
  pose (x := steps (release_command nr nb ns na sg ar)). pose (A := span x). pose (B := span (tl (snd A))). pose (Cc := span (tl (snd B))).
  pose (r := if negb ns && sg then tl (snd Cc) else snd Cc). pose (Dd := if negb ns && sg then span r else ([], r)).
  pose (F := if (if na then false else ar) then tl (snd Dd) else snd Dd).
  exists (fst A), (fst B), (fst Cc), (fst Dd), F. subst F Dd r Cc B A x. destruct nr, nb, ns, na, sg, ar; vm_compute; repeat split.
Qed.
Lemma dev_steps ra nr fb bi : exists A B Cc F,
  steps (dev_command ra nr fb bi) = A ++ Phase FilePatching PreBuild :: B ++ BuildPbos :: Cc ++ Phase Files PostBuild :: F /\
  forallb quiet A = true /\ forallb quiet B = true /\ forallb quiet Cc = true /\ forallb quiet F = true.
Proof.
  pose (x := steps (dev_command ra nr fb bi)). pose (A := span x). pose (B := span (tl (snd A))). pose (Cc := span (tl (snd B))). pose (F := tl (snd Cc)).
  exists (fst A), (fst B), (fst Cc), F. subst F Cc B A x. destruct ra, nr, fb, bi; vm_compute; repeat split.
Qed.

(** ** The commands *)
Section Commands.
  Context {D R E C key : Type} (glob : bytes -> option (bytes -> bool)) (pr : project) (given : list bytes).
  Context (pbo_of : inputs R -> addon D -> bytes + E) (version_of : inputs R -> bytes + E)
          (other : module -> stage -> inputs R -> inputs R * result E C)
          (au : bytes) (keygen : option bytes -> bytes -> key) (public : key -> bytes) (sign : key -> bytes -> bytes + E) (bad_pattern not_found : E)
          (severity_of : C -> severity).
  Notation addon := (addon D).
  Notation inputs := (inputs R).
  Notation world := (world R).
  Notation effect := (effect other).
  Notation has_error := (has_error severity_of).
  Notation key_for := (key_for pr au keygen).
  Definition keeps : Prop := forall m s i, kept_well i -> kept_well (fst (other m s i)).
  Definition doing (c : bool) (l : list addon) (s : step module) (w : world) : world * result E C :=
    act (phase glob pr (include_of given) version_of other au keygen public sign bad_pattern not_found l) (build_step pr pbo_of version_of c l) (archive_step pr version_of) s w.
  Notation runs c l := (runs severity_of (doing c l)).
  Notation went := (fold_left (fun i s => effect s i)).

  Lemma quiet_does c l s w w' r : quiet s = true -> doing c l s w = (w', r) -> from w' = effect s (from w) /\ out w' = out w /\ releases w' = releases w.
  Proof.
    intros Q H. unfold doing, act in H. destruct s as [m st| |]; try discriminate. unfold phase in H. cbn [OutputSpec.effect].
    assert (K : (let '(i, r0) := other m st (from w) in (World i (out w) (releases w), r0)) = (w', r) -> from w' = fst (other m st (from w)) /\ out w' = out w /\ releases w' = releases w).
    { destruct (other m st (from w)) as [i r0]. intros [= <- <-]. cbn [from out releases fst]. auto. }
    destruct m, st; try discriminate; apply K; exact H.
  Qed.
  Lemma quiet_runs c l : forall ss w did w' codes, forallb quiet ss = true -> runs c l ss w did w' (Ok codes) -> ~ has_error codes ->
    from w' = went ss (from w) /\ out w' = out w /\ releases w' = releases w.
  Proof.
    induction ss as [|s ss IH]; intros w did w' codes Q H Hn.
    - inversion H; subst. auto.
    - cbn [forallb] in Q. apply andb_true_iff in Q as (Qs & Q). change (s :: ss) with ([] ++ s :: ss) in H.
      destruct (runs_split severity_of (doing c l) [] s ss w did w' codes H Hn) as (w1 & w2 & c1 & c2 & c3 & R1 & _ & A & _ & R2 & N3). inversion R1; subst.
      apply (quiet_does c l) in A as (F & O & Rl); [|exact Qs]. destruct (IH _ _ _ _ Q R2 N3) as (F' & O' & Rl'). cbn [fold_left]. rewrite <- F. split; [exact F'|]. split; congruence.
  Qed.
  Lemma went_kept : keeps -> forall ss i, kept_well i -> kept_well (went ss i).
  Proof.
    intros K. induction ss as [|s ss IH]; intros i W; [exact W|]. cbn [fold_left]. apply IH. destruct s as [m st| |]; [|exact W|exact W].
    cbn [OutputSpec.effect]. destruct m, st; try exact W; now apply K.
  Qed.
  Lemma arrives_iff x i0 b s r i : steps x = b ++ s :: r -> ~ In s b -> ~ In s r -> arrives other x i0 s i <-> i = went b i0.
  Proof.
    intros Q Hb Hr. split.
    - intros (b' & r' & Q' & ->). assert (b' = b) as ->; [|reflexivity]. rewrite Q in Q'. clear Q i0. revert b' Q'. induction b as [|t b IH]; intros [|t' b'] Q'; cbn [app] in Q'.
      + reflexivity.
      + injection Q' as -> ->. exfalso. apply Hr. apply in_or_app. right. now left.
      + injection Q' as -> _. exfalso. apply Hb. now left.
      + injection Q' as -> Q'. f_equal. apply IH; [|exact Q']. intros I. apply Hb. now right.
    - intros ->. exists b, r. auto.
  Qed.
  Lemma arrives_never x i0 s i : ~ In s (steps x) -> ~ arrives other x i0 s i.
  Proof. intros H (b & r & Q & _). apply H. rewrite Q. apply in_or_app. right. now left. Qed.
  Lemma quiet_not_in ss s : forallb quiet ss = true -> quiet s = false -> ~ In s ss.
  Proof. intros H Q I. rewrite forallb_forall in H. rewrite (H s I) in Q. discriminate. Qed.

  Lemma signing_only ns sg s : In s (signing ns sg) -> s = Phase Sign PreRelease.
  Proof. unfold signing. destruct (negb ns && sg); [intros [<-|[]]; reflexivity|contradiction]. Qed.
  Lemma archiving_only na ar s : In s (archiving na ar) -> s = MakeArchive.
  Proof. unfold archiving. destruct (if na then false else ar); [intros [<-|[]]; reflexivity|contradiction]. Qed.

  (** ** The folder of a build *)
  Lemma runs_cut c l : forall a b w did w' codes, runs c l (a ++ b) w did w' (Ok codes) -> ~ has_error codes ->
    exists w1 c1 c2, runs c l a w a w1 (Ok c1) /\ ~ has_error c1 /\ runs c l b w1 b w' (Ok c2) /\ ~ has_error c2.
  Proof.
    intros a b. induction a as [|s a IH]; intros w did w' codes H Hn.
    - exists w, [], codes. split; [constructor|]. split; [intros (? & [] & _)|]. split; [|exact Hn]. cbn [app] in H.
      now rewrite (runs_not_failed_all severity_of _ _ _ b w did w' codes H Hn) in H.
    - cbn [app] in H. destruct (runs_split severity_of (doing c l) [] s (a ++ b) w did w' codes H Hn) as (w1 & w2 & c1 & c2 & c3 & R1 & _ & A & N2 & R2 & N3). inversion R1; subst.
      destruct (IH _ _ _ _ R2 N3) as (w3 & c4 & c5 & R3 & N4 & R4 & N5). exists w3, (c2 ++ c4), c5. split; [exact (runs_next severity_of _ s a w1 w2 c2 a w3 (Ok c4) A N2 R3)|]. split; [|auto].
      intros (y & I & S). apply in_app_or in I as [I|I]; [apply N2|apply N4]; exists y; auto.
  Qed.
  Lemma strip_below : forall q p, strip q p = None <-> ~ below q p.
  Proof.
    induction q as [|a q IH]; intros p; cbn [strip].
    - split; [discriminate|]. intros H. exfalso. apply H. now exists p.
    - destruct p as [|b p]; [split; [intros _ (r & X); discriminate|reflexivity]|]. destruct (eqb_bytes a b) eqn:Q.
      + apply eqb_bytes_spec in Q as ->. rewrite IH. split; intros H (r & X); apply H; exists r; [injection X as ->; reflexivity|now rewrite X].
      + split; [|reflexivity]. intros _ (r & X). injection X as -> _. rewrite eqb_bytes_refl in Q. discriminate.
  Qed.
  Lemma links_in (o : list (path * node)) : NoDup (map fst o) -> forall q t, In (q, Link t) o <-> look q o = Some (Link t).
  Proof. intros N q t. symmetry. now apply look_in. Qed.

  Lemma built_and_copied c l A B F (w w' : world) did codes :
    forallb quiet A = true -> forallb quiet B = true -> forallb quiet F = true ->
    keeps -> kept_well (from w) -> no_dots pr l -> NoDup (map name l) -> NoDup (map fst (out w)) ->
    (forall p b q t, chosen glob given (went B (went A (from w))) p b -> look q (out w) = Some (Link t) -> ~ below q p) ->
    runs c l (A ++ BuildPbos :: B ++ Phase Files PostBuild :: F) w did w' (Ok codes) -> ~ has_error codes ->
    from w' = went (A ++ BuildPbos :: B ++ Phase Files PostBuild :: F) (from w) /\ releases w' = releases w /\ NoDup (map fst (out w')) /\
    (forall a, In a l -> exists b, pbo_of (went A (from w)) a = inl b) /\
    forall p n, look p (out w') = Some n <->
      (exists b, chosen glob given (went B (went A (from w))) p b /\ n = File b) \/
      (~ exists b, chosen glob given (went B (went A (from w))) p b) /\
      ((exists a b, In a l /\ p = target_pbo pr c a /\ pbo_of (went A (from w)) a = inl b /\ n = File b) \/
       (forall a, In a l -> p <> target_pbo pr c a) /\ look p (out w) = Some n).
  Proof.
    intros QA QB QF K W Nd Nn No Th H Hn. apply runs_split in H as (w1 & w2 & c1 & c2 & c3 & R1 & N1 & S2 & _ & R3 & N3); [|exact Hn].
    apply quiet_runs in R1 as (F1 & O1 & Rl1); [|exact QA|exact N1]. set (iB := went A (from w)) in *. set (iF := went B iB) in *.
    change (build_step pr pbo_of version_of c l w1 = (w2, Ok c2)) in S2. unfold build_step in S2. destruct (version_of (from w1)) as [v0|]; [|discriminate].
    apply build_all_ok in S2 as (F2 & Rl2 & Lk2 & Nd2 & Bs2 & Lo2); [|exact Nd|exact Nn]. rewrite F1 in F2, Bs2, Lo2. rewrite O1 in Lk2, Nd2, Lo2. rewrite Rl1 in Rl2.
    apply runs_split in R3 as (w3 & w4 & c4 & c5 & c6 & R3 & N4 & S4 & _ & R5 & N6); [|exact N3].
    apply quiet_runs in R3 as (F3 & O3 & Rl3); [|exact QB|exact N4]. rewrite F2 in F3. fold iF in F3. rewrite Rl2 in Rl3.
    change (copy_step glob (include_of given) bad_pattern w3 = (w4, Ok c5)) in S4.
    assert (WF : kept_well iF) by (apply went_kept; [exact K|]; apply went_kept; assumption).
    apply copy_step_ok in S4 as (F4 & Rl4 & Lk4 & Nd4 & Lo4); [|rewrite F3; exact WF|].
    2:{ intros p b Cb. rewrite F3 in Cb. apply through_file. intros q t I. rewrite O3 in I. apply Lk2 in I. apply strip_below. apply (Th p b q t Cb). now apply links_in. }
    rewrite F3 in F4, Lo4. rewrite Rl3 in Rl4. rewrite O3 in Nd4, Lo4.
    apply quiet_runs in R5 as (F5 & O5 & Rl5); [|exact QF|exact N6].
    split. { rewrite fold_left_app. cbn [fold_left]. rewrite fold_left_app. cbn [fold_left]. rewrite F5, F4. reflexivity. }
    split; [congruence|]. rewrite O5. split; [apply Nd4, Nd2, No|]. split; [exact Bs2|]. intros p n. rewrite Lo4, Lo2. reflexivity.
  Qed.

  Lemma link_step_is (l : list addon) (w : world) : let w' := fst (link_step (E := E) (C := C) l w) in
    from w' = from w /\ releases w' = releases w /\ (NoDup (map fst (out w)) -> NoDup (map fst (out w'))) /\
    (NoDup (map name l) -> forall p n, look p (out w') = Some n <-> look p (out w) = Some n \/ look p (out w) = None /\ exists a, In a l /\ p = link_path a /\ n = Link [location_name (loc a); name a]).
  Proof.
    unfold link_step. cbn [fst]. cbv zeta. revert w. induction l as [|a l IH]; intros w; cbn [fold_left].
    - split; [auto|]. split; [auto|]. split; [auto|]. intros _ p n. split; [auto|]. intros [X|(_ & a & [] & _)]. exact X.
    - set (w1 := match look (link_path a) (out w) with Some _ => w | None => with_out (put (link_path a) (Link [location_name (loc a); name a]) (out w)) w end).
      assert (F : from w1 = from w) by (unfold w1; destruct (look _ _); reflexivity). assert (Rl : releases w1 = releases w) by (unfold w1; destruct (look _ _); reflexivity).
      assert (Nd : NoDup (map fst (out w)) -> NoDup (map fst (out w1))) by (unfold w1; destruct (look _ _); cbn [with_out out]; [auto|apply put_keys]).
      assert (Lo : forall p n, look p (out w1) = Some n <-> look p (out w) = Some n \/ look p (out w) = None /\ p = link_path a /\ n = Link [location_name (loc a); name a]).
      { intros p n. unfold w1. destruct (look (link_path a) (out w)) as [m|] eqn:L.
        - split; [auto|]. intros [X|(X & -> & _)]; [exact X|congruence].
        - cbn [with_out out]. destruct (path_dec p (link_path a)) as [->|Hp].
          + rewrite look_put_same, L. split; [intros [= <-]; auto|]. intros [X|(_ & _ & ->)]; [discriminate|reflexivity].
          + rewrite look_put_other by auto. split; [auto|]. intros [X|(_ & X & _)]; [exact X|contradiction]. }
      destruct (IH w1) as (F' & Rl' & Nd' & Lo'). rewrite F', Rl'. split; [exact F|]. split; [exact Rl|]. split; [auto|]. intros N. cbn [map] in N. inversion N as [|? ? N1 N2]; subst.
      intros p n. rewrite (Lo' N2), Lo. split.
      + intros [[X|(X & -> & ->)]|(X & a' & I & -> & ->)]; [now left| |].
        * right. split; [exact X|]. exists a. split; [now left|auto].
        * destruct (look (link_path a') (out w)) as [m|] eqn:L.
          -- assert (look (link_path a') (out w1) = Some m) by (apply Lo; auto). congruence.
          -- right. split; [reflexivity|]. exists a'. split; [now right|auto].
      + intros [X|(X & a' & [<-|I] & -> & ->)]; [left; now left|left; right; auto|].
        destruct (look (link_path a') (out w1)) as [m|] eqn:L; [|right; eauto].
        exfalso. apply Lo in L as [L|(_ & L & _)]; [congruence|]. unfold link_path in L. injection L as L. apply N1. rewrite <- L. now apply in_map.
  Qed.
  (** What is in the output folder when the archive is made. *)
  Lemma release_before nr nb ns na sg ar l A B Cc Dd F (w w0 w' : world) did codes : let x := release_command nr nb ns na sg ar in
    steps x = A ++ BuildPbos :: B ++ Phase Files PostBuild :: Cc ++ signing ns sg ++ Dd ++ archiving na ar ++ F ->
    forallb quiet A = true -> forallb quiet B = true -> forallb quiet Cc = true -> forallb quiet Dd = true -> forallb quiet F = true ->
    keeps -> kept_well (from w) -> no_dots pr l -> NoDup (map name l) -> apart glob pr given other au x (from w) l -> w0 = start false w ->
    runs false l (A ++ BuildPbos :: B ++ Phase Files PostBuild :: Cc ++ signing ns sg ++ Dd) w0 did w' (Ok codes) -> ~ has_error codes ->
    (forall p n, look p (out w') = Some n <-> exists b, n = File b /\ released glob pr given pbo_of version_of other au keygen public sign x (from w) l p b) /\
    NoDup (map fst (out w')) /\ releases w' = releases w /\ from w' = went (A ++ BuildPbos :: B ++ Phase Files PostBuild :: Cc ++ signing ns sg ++ Dd) (from w).
  Proof.
    intros x Q QA QB QC QD QF K W Nd Nn Ap W0 H Hn.
    assert (I0 : from w0 = from w) by now rewrite W0. assert (O0 : out w0 = []) by now rewrite W0. assert (R0 : releases w0 = releases w) by now rewrite W0. clear W0.
    set (i0 := from w) in *.
    (* where each step is *)
    assert (AB : forall i, arrives other x i0 BuildPbos i <-> i = went A i0).
    { intros i. apply (arrives_iff x i0 A BuildPbos _ i Q); [now apply quiet_not_in|]. intros I. repeat (apply in_app_or in I as [I|I] || destruct I as [I|I]); try discriminate;
        try (revert I; now apply quiet_not_in); [apply signing_only in I|apply archiving_only in I]; discriminate. }
    set (iB := went A i0) in *.
    assert (AF : forall i, arrives other x i0 (Phase Files PostBuild) i <-> i = went B iB).
    { intros i. rewrite (arrives_iff x i0 (A ++ BuildPbos :: B) (Phase Files PostBuild) (Cc ++ signing ns sg ++ Dd ++ archiving na ar ++ F) i).
      - rewrite fold_left_app. cbn [fold_left]. fold iB. reflexivity.
      - rewrite Q, <- app_assoc. reflexivity.
      - intros I. repeat (apply in_app_or in I as [I|I] || destruct I as [I|I]); try discriminate; revert I; now apply quiet_not_in.
      - intros I. repeat (apply in_app_or in I as [I|I]); try (revert I; now apply quiet_not_in); [apply signing_only in I|apply archiving_only in I]; discriminate. }
    set (iF := went B iB) in *.
    assert (AS : forall i, arrives other x i0 (Phase Sign PreRelease) i <-> negb ns && sg = true /\ i = went Cc iF).
    { intros i. destruct (negb ns && sg) eqn:S.
      - rewrite (arrives_iff x i0 (A ++ BuildPbos :: B ++ Phase Files PostBuild :: Cc) (Phase Sign PreRelease) (Dd ++ archiving na ar ++ F) i).
        + rewrite fold_left_app. cbn [fold_left]. rewrite fold_left_app. cbn [fold_left]. fold iB. change (went B (effect BuildPbos iB)) with iF. tauto.
        + rewrite Q. unfold signing. rewrite S. rewrite <- app_assoc. cbn [app]. rewrite <- app_assoc. reflexivity.
        + intros I. repeat (apply in_app_or in I as [I|I] || destruct I as [I|I]); try discriminate; revert I; now apply quiet_not_in.
        + intros I. repeat (apply in_app_or in I as [I|I]); try (revert I; now apply quiet_not_in). apply archiving_only in I. discriminate.
      - split; [|intros [X _]; discriminate]. intros X. exfalso. revert X. apply arrives_never. rewrite Q. unfold signing. rewrite S.
        intros I. repeat (apply in_app_or in I as [I|I] || destruct I as [I|I]); try discriminate; try (revert I; now apply quiet_not_in). apply archiving_only in I. discriminate. }
    set (iS := went Cc iF) in *.
    (* the run *)
    apply runs_split in H as (w1 & w2 & c1 & c2 & c3 & R1 & N1 & S2 & _ & R3 & N3); [|exact Hn].
    apply quiet_runs in R1 as (F1 & O1 & Rl1); [|exact QA|exact N1]. rewrite I0 in F1. fold iB in F1. rewrite O0 in O1. rewrite R0 in Rl1.
    change (build_step pr pbo_of version_of false l w1 = (w2, Ok c2)) in S2. unfold build_step in S2. destruct (version_of (from w1)) as [v0|]; [|discriminate].
    apply build_all_ok in S2 as (F2 & Rl2 & Lk2 & Nd2 & Bs2 & Lo2); [|exact Nd|exact Nn]. rewrite F1 in F2, Bs2, Lo2. rewrite O1 in Lk2, Nd2, Lo2. rewrite Rl1 in Rl2.
    apply runs_split in R3 as (w3 & w4 & c4 & c5 & c6 & R3 & N4 & S4 & _ & R5 & N6); [|exact N3].
    apply quiet_runs in R3 as (F3 & O3 & Rl3); [|exact QB|exact N4]. rewrite F2 in F3. fold iF in F3. rewrite Rl2 in Rl3.
    change (copy_step glob (include_of given) bad_pattern w3 = (w4, Ok c5)) in S4.
    assert (WF : kept_well iF) by (apply went_kept; [exact K|]; apply went_kept; assumption).
    assert (NL3 : forall q t, ~ In (q, Link t) (out w3)) by (intros q t I; rewrite O3 in I; now apply Lk2 in I).
    apply copy_step_ok in S4 as (F4 & Rl4 & Lk4 & Nd4 & Lo4); [|rewrite F3; exact WF|intros p b _; apply through_file; intros q t I; exfalso; exact (NL3 q t I)].
    rewrite F3 in F4, Lo4. rewrite Rl3 in Rl4. rewrite O3 in Nd4, Lo4.
    assert (NoD4 : NoDup (map fst (out w4))) by (apply Nd4, Nd2; constructor).
    assert (Not : forall p b, chosen glob given iF p b -> ~ made pr au l p) by (intros p b Cb; apply (Ap iF p b); [now apply AF|exact Cb]).
    assert (Tm : forall a, In a l -> made pr au l (target_pbo pr false a)).
    { intros a I. left. exists a. split; [exact I|]. destruct Nd as (P & Fd). rewrite Forall_forall in Fd. apply pbo_place_iff; auto. }
    assert (L4 : forall p n, look p (out w4) = Some n <-> (exists b, chosen glob given iF p b /\ n = File b) \/ exists a b, In a l /\ p = target_pbo pr false a /\ pbo_of iB a = inl b /\ n = File b).
    { intros p n. rewrite Lo4, Lo2. split; [intros [X|(_ & [X|(_ & X)])]; auto; discriminate|]. intros [X|(a & b & I & -> & B' & ->)]; [now left|]. right. split; [|left; eauto 7].
      intros (b' & Cb). exact (Not _ _ Cb (Tm a I)). }
    clear Lo2 Lo4 Lk2 Nd2 Nd4.
    (* what is released *)
    assert (Rel : forall p b, released glob pr given pbo_of version_of other au keygen public sign x i0 l p b <->
       (exists a, In a l /\ p = target_pbo pr false a /\ pbo_of iB a = inl b) \/ chosen glob given iF p b \/
       (negb ns && sg = true /\ exists v, version_of iS = inl v /\
         (p = [bs "keys"; get_authority au v None ++ bs ".bikey"] /\ b = public (keygen None (get_authority au v None)) \/
          (exists a, In a l /\ own_key pr a = true /\ p = key_location pr au v a /\ b = public (key_for v a)) \/
          exists a b0, In a l /\ pbo_of iB a = inl b0 /\ sign (key_for v a) b0 = inl b /\ p = sig_location pr au v a))).
    { destruct Nd as (P & Fd). rewrite Forall_forall in Fd. intros p b. split.
      - intros [a i p' b' I Ai B' Pl|i p' b' Ai Cb|i v p' Ai V ->|a i v k p' I Ai V Om Kn Pl|a i v i' b' k o s p' I Ai V Kn Ai' B' S Pl].
        + apply AB in Ai as ->. apply pbo_place_iff in Pl; auto. left. eauto.
        + apply AF in Ai as ->. right. left. exact Cb.
        + apply AS in Ai as (S & ->). right. right. split; [exact S|]. exists v. split; [exact V|]. left. unfold get_authority. rewrite app_nil_r, <- !app_assoc. auto.
        + apply AS in Ai as (S & ->). right. right. split; [exact S|]. exists v. split; [exact V|]. right. left. exists a. split; [exact I|]. split; [now apply own_key_own|].
          split; [now apply key_place_iff in Pl|]. now rewrite (key_for_name pr au keygen v a k (Some (name a)) Kn).
        + apply AS in Ai as (Sg & ->). apply AB in Ai' as ->. right. right. split; [exact Sg|]. exists v. split; [exact V|]. right. right. exists a, b'. split; [exact I|]. split; [exact B'|].
          rewrite (key_for_name pr au keygen v a k o Kn). split; [exact S|]. apply sig_place_iff in Pl; auto.
      - intros [(a & I & -> & B')|[Cb|(S & v & V & [(-> & ->)|[(a & I & O & -> & ->)|(a & b0 & I & B' & Sg & ->)]])]].
        + apply the_pbo with a iB; [exact I|now apply AB|exact B'|apply pbo_place_iff; auto].
        + apply the_file with iF; [now apply AF|exact Cb].
        + unfold get_authority. rewrite app_nil_r. apply the_key with iS; [now apply AS|exact V|]. now rewrite <- !app_assoc.
        + apply own_key_own in O. assert (Kn := own_key_ pr au v a O). rewrite (key_for_name pr au keygen v a _ _ Kn).
          apply an_own_key with (i := iS) (v := v); [exact I|now apply AS|exact V|exact O|exact Kn|now apply key_place_iff].
        + destruct (own_mod_dec pr a) as [O|O].
          * assert (Kn := own_key_ pr au v a O). rewrite (key_for_name pr au keygen v a _ _ Kn) in Sg.
            eapply the_signature with (i := iS) (i' := iB); [exact I|now apply AS|exact V|exact Kn|now apply AB|exact B'|exact Sg|apply sig_place_iff; auto].
          * assert (Kn := common_key pr au v a O). rewrite (key_for_name pr au keygen v a _ _ Kn) in Sg.
            eapply the_signature with (i := iS) (i' := iB); [exact I|now apply AS|exact V|exact Kn|now apply AB|exact B'|exact Sg|apply sig_place_iff; auto]. }
    (* after the signing *)
    assert (K6 : exists w6 c7, ExecSpec.runs severity_of (doing false l) Dd w6 Dd w' (Ok c7) /\ ~ has_error c7 /\
       NoDup (map fst (out w6)) /\ releases w6 = releases w /\ from w6 = went (signing ns sg) iS /\
       forall p n, look p (out w6) = Some n <-> exists b, n = File b /\ released glob pr given pbo_of version_of other au keygen public sign x i0 l p b).
    { unfold signing in R5 |- *. destruct (negb ns && sg) eqn:S.
      - cbn [app] in R5. apply runs_split in R5 as (w5 & w6 & c7 & c8 & c9 & R5 & N7 & S6 & _ & R7 & N9); [|exact N6].
        apply quiet_runs in R5 as (F5 & O5 & Rl5); [|exact QC|exact N7]. rewrite F4 in F5. fold iS in F5. rewrite Rl4 in Rl5.
        change (sign_step pr version_of au keygen public sign not_found l w5 = (w6, Ok c8)) in S6. unfold sign_step in S6. destruct (version_of (from w5)) as [v|] eqn:V; [|discriminate].
        rewrite F5 in V. set (ck := [bs "keys"; get_authority au v None ++ bs ".bikey"]) in *.
        apply sign_all_ok in S6 as (F6 & Rl6 & _ & Nd6 & _ & Lo6); [|exact Nd|exact Nn]. cbn [with_out from releases out] in F6, Rl6, Nd6, Lo6. rewrite O5 in Nd6, Lo6.
        exists w6, c9. split; [exact R7|]. split; [exact N9|]. split; [apply Nd6, put_keys, NoD4|]. split; [congruence|]. split; [cbn [fold_left]; change (effect (Phase Sign PreRelease) iS) with iS; congruence|].
        assert (CkE : ending ck = 121) by (unfold ck; apply (ending_app [bs "keys"] _ [46; 98; 105; 107; 101] 121)).
        assert (CkT : forall a : addon, target_pbo pr false a <> ck) by (intros a X; apply (f_equal ending) in X; rewrite target_ending, CkE in X; discriminate).
        assert (CkS : forall a : addon, sig_location pr au v a <> ck) by (intros a X; apply (f_equal ending) in X; rewrite sig_ending, CkE in X; discriminate).
        assert (CkO : forall a : addon, own_key pr a = true -> key_location pr au v a <> ck) by (intros a O X; destruct (own_key_location pr au v a O) as (k & Kl); rewrite Kl in X; discriminate).
        assert (CkM : made pr au l ck) by (right; right; exists v; unfold ck, get_authority; now rewrite app_nil_r, <- !app_assoc).
        assert (Lt : forall a, In a l -> forall b, look (target_pbo pr false a) (put ck (File (public (keygen None (get_authority au v None)))) (out w4)) = Some (File b) <-> pbo_of iB a = inl b).
        { intros a I b. rewrite look_put_other by apply CkT. rewrite L4. split.
          - intros [(b' & Cb & _)|(a' & b' & I' & Tq & B' & [= ->])]; [exfalso; exact (Not _ _ Cb (Tm a I))|].
            destruct Nd as (P & Fd). rewrite Forall_forall in Fd. apply target_inj in Tq; auto. now rewrite (in_name_eq l a a' Nn I I' Tq).
          - intros B'. right. eauto 7. }
        assert (Dsj : forall p, (exists b, chosen glob given iF p b) \/ (exists a, In a l /\ p = target_pbo pr false a) -> p <> ck /\ forall a, In a l -> ~ (own_key pr a = true /\ p = key_location pr au v a) /\ p <> sig_location pr au v a).
        { intros p [(b & Cb)|(a & I & ->)].
          - split; [intros ->; exact (Not _ _ Cb CkM)|]. intros a I. split.
            + intros (O & ->). apply (Not _ _ Cb). right. left. exists a, v. split; [exact I|]. right. now apply key_place_iff.
            + intros ->. apply (Not _ _ Cb). right. left. exists a, v. split; [exact I|]. left. destruct Nd as (P & Fd). rewrite Forall_forall in Fd. apply sig_place_iff; auto.
          - split; [apply CkT|]. intros a' _. split; [intros (_ & X)|intros X]; apply (f_equal ending) in X; rewrite target_ending in X; [rewrite key_ending in X|rewrite sig_ending in X]; discriminate. }
        intros p n. rewrite Lo6. split.
        + intros [(a & I & O & -> & ->)|[(a & b & s & I & Lb & Sg & -> & ->)|(Hp & X)]].
          * eexists. split; [reflexivity|]. apply Rel. right. right. split; [reflexivity|]. exists v. split; [exact V|]. right. left. eauto.
          * exists s. split; [reflexivity|]. apply Rel. right. right. split; [reflexivity|]. exists v. split; [exact V|]. right. right. exists a, b. apply Lt in Lb; auto.
          * destruct (path_dec p ck) as [->|Hck].
            -- rewrite look_put_same in X. injection X as <-. eexists. split; [reflexivity|]. apply Rel. right. right. split; [reflexivity|]. exists v. split; [exact V|]. left. auto.
            -- rewrite look_put_other in X by auto. apply L4 in X as [(b & Cb & ->)|(a & b & I & -> & B' & ->)]; exists b; (split; [reflexivity|]); apply Rel; [right; left; exact Cb|left; eauto].
        + intros (b & -> & Rb). apply Rel in Rb as [(a & I & -> & B')|[Cb|(_ & v' & V' & Rb)]].
          * right. right. destruct (Dsj (target_pbo pr false a)) as (_ & Hd); [right; eauto|]. split; [exact Hd|]. now apply Lt.
          * right. right. destruct (Dsj p) as (Hck & Hd); [left; eauto|]. split; [exact Hd|]. rewrite look_put_other by auto. apply L4. left. eauto.
          * assert (v' = v) as -> by congruence. destruct Rb as [(-> & ->)|[(a & I & O & -> & ->)|(a & b0 & I & B' & Sg & ->)]].
            -- right. right. split; [intros a I; split; [intros (O & X); exact (CkO a O (eq_sym X))|intros X; exact (CkS a (eq_sym X))]|]. apply look_put_same.
            -- left. eauto 6.
            -- right. left. exists a, b0, b. split; [exact I|]. split; [now apply Lt|auto].
      - rewrite app_nil_l in R5. 
        apply runs_cut in R5 as (w6 & c7 & c8 & R5 & N7 & R6 & N8); [|exact N6]. apply quiet_runs in R5 as (F5 & O5 & Rl5); [|exact QC|exact N7].
        exists w6, c8. split; [exact R6|]. split; [exact N8|]. rewrite O5. split; [exact NoD4|]. split; [congruence|]. split; [cbn [fold_left]; now rewrite F5, F4|].
        intros p n. rewrite L4. split.
        + intros [(b & Cb & ->)|(a & b & I & -> & B' & ->)]; exists b; (split; [reflexivity|]); apply Rel; [right; left; exact Cb|left; eauto].
        + intros (b & -> & Rb). apply Rel in Rb as [(a & I & -> & B')|[Cb|(X & _)]]; [right; eauto 7|left; eauto|discriminate]. }
    destruct K6 as (w6 & c7 & R6 & N7 & NoD6 & Rl6 & F6 & Lo6).
    assert (fAll : went (signing ns sg) iS = iS) by (unfold signing; destruct (negb ns && sg); reflexivity).
    apply quiet_runs in R6 as (F7 & O7 & Rl7); [|exact QD|exact N7]. rewrite O7. split; [exact Lo6|]. split; [exact NoD6|]. split; [congruence|].
    rewrite fold_left_app. cbn [fold_left]. rewrite fold_left_app. cbn [fold_left]. rewrite !fold_left_app. rewrite F7, F6. reflexivity.
  Qed.

  (** A run of two parts. *)
  Lemma runs_parts c l : forall a b w did w' r, runs c l (a ++ b) w did w' r ->
    runs c l a w did w' r /\ (forall codes, r = Ok codes -> has_error codes) \/
    exists w1 c1 did' r', runs c l a w a w1 (Ok c1) /\ ~ has_error c1 /\ runs c l b w1 did' w' r' /\ r = match r' with Ok more => Ok (c1 ++ more) | Err e => Err e end.
  Proof.
    intros a b. induction a as [|s a IH]; intros w did w' r H; cbn [app] in H.
    - right. exists w, [], did, r. split; [constructor|]. split; [intros (? & [] & _)|]. split; [exact H|]. now destruct r.
    - inversion H as [|s0 ss w0 w1 e A|s0 ss w0 w1 c0 A B|s0 ss w0 w1 c0 did' w'' r' A B Rr]; subst.
      + left. split; [now apply runs_err|discriminate].
      + left. split; [now apply runs_bad|]. intros codes [= <-]. exact B.
      + destruct (IH _ _ _ _ Rr) as [(R1 & Hb)|(w2 & c2 & did2 & r2 & R1 & N1 & R2 & Hr)].
        * left. split; [exact (runs_next severity_of _ s a w w1 c0 did' w' r' A B R1)|]. intros codes Q. destruct r' as [more|]; [|discriminate]. injection Q as <-.
          destruct (Hb more eq_refl) as (y & I & S). exists y. split; [apply in_or_app; now right|exact S].
        * right. exists w2, (c0 ++ c2), did2, r2. split; [exact (runs_next severity_of _ s a w w1 c0 a w2 (Ok c2) A B R1)|]. split; [|split; [exact R2|]].
          -- intros (y & I & S). apply in_app_or in I as [I|I]; [apply B|apply N1]; exists y; auto.
          -- rewrite Hr. destruct r2; [now rewrite app_assoc|reflexivity].
  Qed.
  Lemma runs_same c l ss : (forall s, In s ss -> s <> MakeArchive) -> forall w did w' r, runs c l ss w did w' r -> releases w' = releases w.
  Proof.
    intros Hs w did w' r H. symmetry. apply (runs_keep severity_of (doing c l) (fun a b => releases a = releases b)) with (ss := ss) (did := did) (r := r); auto; [congruence|].
    clear w did w' r H. intros s w w' r I A. specialize (Hs s I). destruct s as [m st| |]; [| |congruence].
    - assert (Cp : forall ps (w : world), releases (fold_left (fun w p => copy_file p w) ps w) = releases w).
      { induction ps as [|p ps IH]; intros w1; cbn [fold_left]; [reflexivity|]. rewrite IH. unfold copy_file. destruct (content p (from w1)); [|reflexivity]. destruct (through (out w1) p); reflexivity. }
      assert (Sg : forall v (l' : list addon) (w w' : world) r, sign_all pr au keygen public sign not_found v l' w = (w', r : result E C) -> releases w' = releases w).
      { intros v. induction l' as [|a l' IH]; intros w1 w2 r2 H; cbn [sign_all] in H; [injection H as <- _; reflexivity|]. cbv zeta in H.
        destruct (look _ _) as [[b|]|]; [|injection H as <- _; reflexivity|injection H as <- _; reflexivity]. destruct (sign _ b); [|injection H as <- _; reflexivity]. apply IH in H. exact H. }
      unfold doing, act in A. destruct (quiet (Phase m st)) eqn:Qt; [destruct (quiet_does c l (Phase m st) w w' r Qt A) as (_ & _ & ->); reflexivity|].
      destruct m, st; try discriminate; cbn [phase] in A.
      + unfold copy_step in A. destruct (BinarizeModel.patterns _ _); injection A as <- _; [now rewrite Cp|reflexivity].
      + destruct (link_step_is l w) as (_ & Rl & _). rewrite A in Rl. cbn [fst] in Rl. congruence.
      + unfold sign_step in A. destruct (version_of (from w)); [|injection A as <- _; reflexivity]. apply Sg in A. now rewrite A.
    - unfold doing, act, build_step in A. destruct (version_of (from w)); [|injection A as <- _; reflexivity].
      revert w w' r A. induction l as [|a l IH]; intros w w' r A; cbn [build_all] in A; [injection A as <- _; reflexivity|]. destruct (pbo_of (from w) a); [|injection A as <- _; reflexivity].
      apply IH in A. exact A.
  Qed.
  Lemma quiet_same c l ss : forallb quiet ss = true -> forall w did w' r, runs c l ss w did w' r -> out w' = out w.
  Proof.
    intros Hs w did w' r H. symmetry. apply (runs_keep severity_of (doing c l) (fun a b => out a = out b)) with (ss := ss) (did := did) (r := r); auto; [congruence|].
    intros s w1 w2 r1 I A. rewrite forallb_forall in Hs. destruct (quiet_does c l s w1 w2 r1 (Hs s I) A) as (_ & -> & _). reflexivity.
  Qed.
End Commands.

(** ** Archives *)
Lemma above_in : forall p q, In q (above p) <-> exists r, q <> [] /\ r <> [] /\ p = q ++ r.
Proof.
  induction p as [|a p IH]; intros q.
  - split; [contradiction|]. intros (r & H1 & H2 & Q). symmetry in Q. apply app_eq_nil in Q as [-> _]. contradiction.
  - destruct p as [|b p].
    + split; [contradiction|]. intros (r & H1 & H2 & Q). destruct q as [|c q]; [contradiction|]. injection Q as _ Q. symmetry in Q. apply app_eq_nil in Q as [_ ->]. contradiction.
    + change (In q ([a] :: map (cons a) (above (b :: p))) <-> exists r, q <> [] /\ r <> [] /\ a :: b :: p = q ++ r). cbn [In]. rewrite in_map_iff. split.
      * intros [<-|(q' & <- & I)]; [exists (b :: p); repeat split; discriminate|]. apply IH in I as (r & H1 & H2 & ->). exists r. repeat split; [discriminate|exact H2].
      * intros (r & H1 & H2 & Q). destruct q as [|c q]; [contradiction|]. injection Q as -> Q. destruct q as [|d q]; [left; reflexivity|]. right. exists (d :: q). split; [reflexivity|]. apply IH. exists r. repeat split; [discriminate|exact H2|exact Q].
Qed.
Lemma once_in : forall l p, In p (once l) <-> In p l.
Proof.
  induction l as [|q l IH]; intros p; cbn [once]; [reflexivity|]. destruct (existsb (same_path q) l) eqn:X; cbn [In]; rewrite IH; [|reflexivity].
  apply existsb_exists in X as (r & I & Q). apply same_path_eq in Q as <-. split; [auto|]. intros [<-|H]; auto.
Qed.
Lemma zip_files pr o n b : In (n, Some b) (zip_of pr o) <-> exists p, n = entry pr p /\ In (p, File b) o.
Proof.
  unfold zip_of. rewrite in_app_iff, !in_map_iff. split.
  - intros [(p & Q & _)|([p x] & Q & I)]; [discriminate|]. cbn [fst snd] in Q. destruct x as [b'|t]; [|discriminate]. exists p. assert (n = zip_name pr p) as -> by congruence. split; [reflexivity|congruence].
  - intros (p & -> & I). right. exists (p, File b). split; [reflexivity|exact I].
Qed.
Lemma zip_folders pr o n : (forall p t, ~ In (p, Link t) o) -> In (n, None) (zip_of pr o) <-> exists p q x, p <> [] /\ q <> [] /\ n = entry pr p /\ In (p ++ q, x) o.
Proof.
  intros H. unfold zip_of. rewrite in_app_iff, !in_map_iff. split.
  - intros [(p & Q & I)|([p x] & Q & I)].
    + apply once_in, in_flat_map in I as ([f x] & I & A). cbn [fst] in A. apply above_in in A as (r & H1 & H2 & ->). exists p, r, x. split; [exact H1|]. split; [exact H2|]. split; [|exact I].
      assert (n = zip_name pr p) as -> by congruence. reflexivity.
    + cbn [fst snd] in Q. destruct x as [b'|t]; [discriminate|]. now apply H in I.
  - intros (p & q & x & H1 & H2 & -> & I). left. exists p. split; [reflexivity|]. apply once_in, in_flat_map. exists (p ++ q, x). split; [exact I|]. apply above_in. exists q. auto.
Qed.
