(** Proofs for C78. *)
From Coq Require Import String Sorting.Sorted.
From Verif Require Import Base.Tactics Base.Bytes Base.Ascii Base.Text Base.Sort Common.LaunchModel Common.LaunchSpec Common.LaunchProofs Bin.LaunchLineModel Bin.LaunchLineSpec.
From Verif Require Bin.AddonModel Bin.PackModel.
Local Open Scope N_scope.
Local Open Scope list_scope.

(** ** Searching *)
Lemma lit_some : forall p s r, lit p s = Some r <-> s = p ++ r.
Proof.
  intros p s r. unfold lit. destruct (starts_with p s) eqn:E.
  - apply starts_with_spec in E as (q & ->). rewrite skipn_app, skipn_all, Nat.sub_diag. cbn. split; [now intros [= ->]|]. intros H. now apply app_inv_head in H as ->.
  - split; [discriminate|]. intros ->. assert (starts_with p (p ++ r) = true) by (apply starts_with_spec; eauto). congruence.
Qed.
Lemma span_some : forall f s a b, span f s = (a, b) -> s = a ++ b /\ Forall (fun c => f c = true) a /\ match b with c :: _ => f c = false | [] => True end.
Proof.
  intros f. induction s as [|c s IH]; intros a b H; cbn [span] in H; [injection H as <- <-; auto|]. destruct (f c) eqn:E; [|injection H as <- <-; auto].
  destruct (span f s) as (a', b'). injection H as <- <-. destruct (IH _ _ eq_refl) as (-> & A & B). auto.
Qed.
Lemma span_app : forall f a b, Forall (fun c => f c = true) a -> match b with c :: _ => f c = false | [] => True end -> span f (a ++ b) = (a, b).
Proof. intros f a b A B. induction A as [|c a E A IH]; [destruct b; [reflexivity|]; cbn in *; now rewrite B|]. cbn [app span]. now rewrite E, IH. Qed.
Lemma number_some : forall digit close s id r, digit close = false -> number digit close s = Some (id, r) <-> digits digit id /\ s = id ++ close :: r.
Proof.
  intros digit close s id r N0. unfold number, digits. split.
  - intros H. destruct (span digit s) as (a, b) eqn:E. apply span_some in E as (-> & A & _). destruct a as [|d ds], b as [|c b]; try discriminate. destruct (N.eqb_spec c close); [|discriminate].
    injection H as <- <-. subst c. repeat split; [discriminate|exact A].
  - intros ((NE & A) & ->). rewrite span_app; [|exact A|exact N0]. destruct id; [contradiction|]. now rewrite N.eqb_refl.
Qed.
Lemma link_some : forall digit site s id r, digit 34 = false ->
  link digit site s = Some (id, r) <-> digits digit id /\ exists h, (h = bs "http" \/ h = bs "https") /\ s = bs "href=""" ++ h ++ bs "://" ++ site ++ id ++ bs """" ++ r.
Proof.
  intros digit site s id r N0. unfold link. split.
  - intros H. destruct (lit (bs "href=""http") s) as [s1|] eqn:E; [|discriminate]. apply lit_some in E. subst s.
    assert (exists o s2, (o = [] \/ o = [115]) /\ s1 = o ++ s2 /\ (match s1 with c :: s' => if c =? 115 then s' else s1 | [] => [] end) = s2) as (o & s2 & O & -> & E2).
    { destruct s1 as [|c s1]; [exists [], []; auto|]. destruct (N.eqb_spec c 115) as [->|NE]; [exists [115], s1; auto|]. exists [], (c :: s1). auto. }
    rewrite E2 in H. destruct (lit (bs "://" ++ site) s2) as [s3|] eqn:E; [|discriminate]. apply lit_some in E. subst s2. apply (number_some digit 34 s3 id r N0) in H as (D & ->).
    split; [exact D|]. destruct O as [-> | ->]; [exists (bs "http")|exists (bs "https")]; split; auto; rewrite <- !app_assoc; reflexivity.
  - intros (D & h & [-> | ->] & ->).
    + replace (lit (bs "href=""http") _) with (Some (58 :: 47 :: 47 :: site ++ id ++ bs """" ++ r)) by (symmetry; now apply lit_some). cbv beta iota zeta. change (58 =? 115) with false. cbv iota.
      replace (lit (bs "://" ++ site) _) with (Some (id ++ 34 :: r)) by (symmetry; apply lit_some; now rewrite <- app_assoc). apply number_some; auto.
    + replace (lit (bs "href=""http") _) with (Some (115 :: bs "://" ++ site ++ id ++ bs """" ++ r)) by (symmetry; now apply lit_some). cbv beta iota zeta. change (115 =? 115) with true. cbv iota.
      replace (lit (bs "://" ++ site) _) with (Some (id ++ 34 :: r)) by (symmetry; apply lit_some; now rewrite <- app_assoc). apply number_some; auto.
Qed.

(** ** All matches *)
Definition apart (m : text -> option (text * text)) : Prop :=
  forall s x r, m s = Some (x, r) -> exists k, s = k ++ r /\ k <> [] /\ forall a b, k = a ++ b -> a <> [] -> b <> [] -> m (b ++ r) = None.
Lemma all_found : forall m, apart m -> forall fuel s x, (length s < fuel)%nat -> In x (find_all fuel m s) <-> exists a s' r, s = a ++ s' /\ m s' = Some (x, r).
Proof.
  intros m AP. induction fuel as [|fuel IH]; intros s x L; [lia|]. cbn [find_all]. destruct (m s) as [(y, s')|] eqn:M.
  - destruct (AP _ _ _ M) as (k & -> & NE & NO). assert (Lk : (0 < length k)%nat) by (destruct k; [contradiction|cbn; lia]). rewrite app_length in L. cbn [In]. rewrite IH by lia. split.
    + intros [<-|(a & s2 & r & -> & E)]; [exists [], (k ++ s'), s'; auto|]. exists (k ++ a), s2, r. split; [now rewrite app_assoc|exact E].
    + intros (a & s2 & r & E & Ms). destruct a as [|c a]; [cbn in E; subst s2; rewrite M in Ms; injection Ms as <- _; now left|]. right.
      apply app_eq_app in E as (l & [(-> & Es)|(Ea & ->)]).
      * destruct l as [|d l]; [cbn in Es; subst s2; exists [], s', r; auto|]. exfalso. subst s2. rewrite (NO (c :: a) (d :: l) eq_refl) in Ms; discriminate.
      * exists l, s2, r. auto.
  - destruct s as [|c s]; [split; [intros []|]; intros (a & s' & r & E & Ms); symmetry in E; apply app_eq_nil in E as [-> ->]; congruence|]. cbn [length] in L. rewrite IH by lia. split.
    + intros (a & s' & r & -> & Ms). exists (c :: a), s', r. auto.
    + intros (a & s' & r & E & Ms). destruct a as [|d a]; [cbn in E; subst s'; congruence|]. injection E as <- ->. eauto.
Qed.
Lemma first_found : forall m fuel s x, (length s < fuel)%nat -> hd_error (find_all fuel m s) = Some x <->
  exists a s' r, s = a ++ s' /\ m s' = Some (x, r) /\ forall a2 s2, s = a2 ++ s2 -> (length a2 < length a)%nat -> m s2 = None.
Proof.
  intros m. induction fuel as [|fuel IH]; intros s x L; [lia|]. cbn [find_all]. destruct (m s) as [(y, s')|] eqn:M.
  - cbn [hd_error]. split.
    + intros [= ->]. exists [], s, s'. repeat split; auto. intros a2 s2 _ Q. cbn in Q. lia.
    + intros (a & s2 & r & E & Ms & F). destruct a as [|c a]; [cbn in E; subst s2; rewrite M in Ms; now injection Ms as ->|]. rewrite (F [] s eq_refl) in M; [discriminate|cbn; lia].
  - destruct s as [|c s].
    + split; [discriminate|]. intros (a & s' & r & E & Ms & _). symmetry in E. apply app_eq_nil in E as [-> ->]. congruence.
    + cbn [length] in L. rewrite IH by lia. split.
      * intros (a & s' & r & -> & Ms & F). exists (c :: a), s', r. repeat split; auto. intros [|d a2] s2 E Q; [cbn in E; now subst s2|]. injection E as <- E. apply (F a2 s2 E). cbn in Q. lia.
      * intros (a & s' & r & E & Ms & F). destruct a as [|d a]; [cbn in E; subst s'; congruence|]. injection E as <- ->. exists a, s', r. repeat split; auto.
        intros a2 s2 E Q. apply (F (c :: a2) s2); [now rewrite E|cbn; lia].
Qed.

(** No link begins in another. *)
Fixpoint quiet (l : text) : bool :=
  match l with [] => true | c :: l' => negb ((c =? 104) && match l' with d :: _ => d =? 114 | [] => true end) && quiet l' end.
Lemma quiet_app : forall a b, quiet a = true -> quiet b = true -> quiet (a ++ b) = true.
Proof.
  induction a as [|c a IH]; intros b A B; [exact B|]. cbn [app quiet] in *. apply andb_prop in A as [A1 A2]. rewrite (IH b A2 B), Bool.andb_true_r.
  destruct (c =? 104); [|reflexivity]. destruct a as [|d a]; [discriminate|exact A1].
Qed.
Lemma quiet_tail : forall a b, quiet (a ++ b) = true -> quiet b = true.
Proof. induction a as [|c a IH]; intros b H; [exact H|]. cbn [app quiet] in H. apply andb_prop in H as [_ H]. now apply IH. Qed.
Lemma quiet_none : forall digit site b r, quiet b = true -> b <> [] -> link digit site (b ++ r) = None.
Proof.
  intros digit site b r Q NE. unfold link. destruct (lit (bs "href=""http") (b ++ r)) as [s|] eqn:E; [|reflexivity]. exfalso. apply lit_some in E.
  change (b ++ r = 104 :: 114 :: (bs "ef=""http" ++ s)) in E. destruct b as [|c [|d b]]; [contradiction| |].
  - cbn [app] in E. injection E as -> _. discriminate.
  - cbn [app] in E. injection E as -> -> _. discriminate.
Qed.
Lemma link_apart : forall digit site, digit 34 = false -> digit 104 = false -> quiet site = true -> apart (link digit site).
Proof.
  intros digit site N34 N104 QS s id r H. apply link_some in H as (D & h & Hh & ->); [|exact N34]. exists (bs "href=""" ++ h ++ bs "://" ++ site ++ id ++ bs """").
  split; [rewrite <- !app_assoc; reflexivity|]. split; [discriminate|]. intros a b E NA NB. apply quiet_none; [|exact NB]. destruct a as [|c a]; [contradiction|].
  change (bs "href=""" ++ h ++ bs "://" ++ site ++ id ++ bs """") with (104 :: bs "ref=""" ++ h ++ bs "://" ++ site ++ id ++ bs """") in E. injection E as _ E.
  apply (quiet_tail a). rewrite <- E. repeat apply quiet_app; try reflexivity; [destruct Hh as [-> | ->]; reflexivity|exact QS|].
  destruct D as [_ D]. clear - D N104. induction D as [|c l E D IH]; [reflexivity|]. cbn [quiet]. rewrite IH, Bool.andb_true_r. destruct (N.eqb_spec c 104) as [->|]; [congruence|reflexivity].
Qed.
Lemma links_found : forall digit site html id, digit 34 = false -> digit 104 = false -> quiet site = true ->
  In id (find_all (S (length html)) (link digit site) html) <-> linked digit site html id.
Proof.
  intros digit site html id N34 N104 QS. rewrite (all_found _ (link_apart digit site N34 N104 QS)) by lia. unfold linked. split.
  - intros (a & s & r & -> & M). apply link_some in M as (D & h & Hh & ->); [|exact N34]. split; [exact D|]. exists a, h, r. auto.
  - intros (D & a & h & b & Hh & ->). exists a. eexists. exists b. split; [reflexivity|]. apply link_some; [exact N34|]. split; [exact D|]. exists h. auto.
Qed.
Lemma published_some : forall digit s id r, digit 59 = false -> (forall c, is_ws c = true -> digit c = false) ->
  published digit s = Some (id, r) <-> digits digit id /\ exists w1 w2, spaces w1 /\ spaces w2 /\ s = bs "publishedid" ++ w1 ++ bs "=" ++ w2 ++ id ++ bs ";" ++ r.
Proof.
  intros digit s id r N59 WS. unfold published. split.
  - intros H. destruct (lit (bs "publishedid") s) as [s1|] eqn:E; [|discriminate]. apply lit_some in E. subst s. destruct (span is_ws s1) as (w1, s2) eqn:E1. apply span_some in E1 as (-> & W1 & _).
    cbn [snd] in H. destruct s2 as [|c s2]; [discriminate|]. destruct (N.eqb_spec c 61) as [->|]; [|discriminate]. destruct (span is_ws s2) as (w2, s3) eqn:E2. apply span_some in E2 as (-> & W2 & _).
    cbn [snd] in H. apply number_some in H as (D & ->); [|exact N59]. split; [exact D|]. exists w1, w2. repeat split; auto.
  - intros (D & w1 & w2 & W1 & W2 & ->). replace (lit _ _) with (Some (w1 ++ bs "=" ++ w2 ++ id ++ bs ";" ++ r)) by (symmetry; now apply lit_some).
    rewrite span_app; [|exact W1|reflexivity]. cbn [snd]. change (bs "=" ++ w2 ++ id ++ bs ";" ++ r) with (61 :: w2 ++ id ++ bs ";" ++ r). cbv iota. change (61 =? 61) with true. cbv iota.
    rewrite span_app; [|exact W2|]. { cbn [snd]. apply number_some; [exact N59|]. auto. }
    destruct D as [NE D]. destruct id as [|c id]; [contradiction|]. cbn [app]. inversion D as [|? ? Dc _]; subst. destruct (is_ws c) eqn:E; [|reflexivity]. rewrite (WS c E) in Dc. discriminate.
Qed.
Lemma meta_published : forall digit w id, digit_class digit -> meta_id digit w = Some id <-> published_as digit w id.
Proof.
  intros digit w id [DA DW]. assert (N59 : digit 59 = false) by (now rewrite DA). unfold meta_id, published_as. destruct (meta w) as [c|]; [|split; [discriminate|]; intros (c & a & E & _); discriminate].
  assert (EN : forall a id, entry digit c a id <-> exists s r, c = a ++ s /\ published digit s = Some (id, r)).
  { intros a i. unfold entry. split.
    - intros (D & w1 & w2 & b & W1 & W2 & ->). eexists. exists b. split; [reflexivity|]. apply published_some; auto. split; [exact D|]. exists w1, w2. auto.
    - intros (s & r & -> & P). apply published_some in P as (D & w1 & w2 & W1 & W2 & ->); auto. split; [exact D|]. exists w1, w2, r. auto. }
  rewrite first_found by lia. split.
  - intros (a & s & r & -> & P & F). exists (a ++ s), a. split; [reflexivity|]. split; [apply EN; eauto|]. intros a' id' E. apply EN in E as (s' & r' & E & P'). destruct (Nat.le_gt_cases (length a) (length a')) as [|L]; [assumption|].
    rewrite (F a' s' E L) in P'. discriminate.
  - intros (c' & a & [= <-] & E & F). apply EN in E as (s & r & -> & P). exists a, s, r. repeat split; auto. intros a2 s2 E L. destruct (published digit s2) as [(i, r2)|] eqn:P2; [|reflexivity].
    assert (length a <= length a2)%nat; [|lia]. apply (F a2 i). apply EN. eauto.
Qed.
Lemma push_new_in : forall {A} (eqb : A -> A -> bool), (forall x y, eqb x y = true <-> x = y) -> forall l acc x, In x (push_new eqb acc l) <-> In x acc \/ In x l.
Proof.
  intros A eqb EQ. unfold push_new. induction l as [|y l IH]; intros acc x; cbn [fold_left]; [cbn; tauto|]. rewrite IH. destruct (existsb (eqb y) acc) eqn:E.
  - apply existsb_exists in E as (z & I & E). apply EQ in E. subst z. cbn [In]. split; [tauto|]. intros [H|[<-|H]]; auto.
  - rewrite in_app_iff. cbn [In]. tauto.
Qed.
Lemma presets_added : forall digit lower, digit_class digit -> forall w ps mods ds es mods' ds' es', add_presets digit lower w ps mods ds es = (mods', ds', es') ->
  (forall x, In x mods' <-> In x mods \/ exists p html, In p ps /\ preset_file w (preset_path p) = Some html /\ linked digit (bs "steamcommunity.com/sharedfiles/filedetails/?id=") html x) /\
  (forall d, In d ds' <-> In d ds \/ exists p html id, In p ps /\ preset_file w (preset_path p) = Some html /\ linked digit (bs "store.steampowered.com/app/") html id /\ dlc_of lower id = Some d) /\
  es' = es ++ flat_map (fun p => match preset_file w (preset_path p) with None => [PresetNotFound p] | Some _ => [] end) ps.
Proof.
  intros digit lower [DA DW] w. assert (N34 : digit 34 = false) by (now rewrite DA). assert (N104 : digit 104 = false) by (now rewrite DA).
  induction ps as [|p ps IH]; intros mods ds es mods' ds' es' H; cbn [add_presets] in H.
  - injection H as <- <- <-. cbn [flat_map]. rewrite app_nil_r. repeat split; try (intros [H|H]; [exact H|]); auto; [destruct H as (p & html & [] & _)|destruct H as (p & html & id & [] & _)].
  - destruct (preset_file w (preset_path p)) as [html|] eqn:P.
    + unfold preset_read in H. cbv beta iota in H. apply IH in H as (A & B & C). cbn [flat_map]. rewrite P. cbn [app]. split; [|split; [|exact C]].
      * intros x. rewrite A, (push_new_in eqb_bytes eqb_bytes_spec), (push_new_in eqb_bytes eqb_bytes_spec), (links_found digit workshop_site html x N34 N104 eq_refl). cbn [In]. split.
        -- intros [[H|[[]|H]]|(q & h & I & F & K)]; [auto|right; exists p, html; auto|right; exists q, h; auto].
        -- intros [H|(q & h & [<-|I] & F & K)]; [auto| |right; exists q, h; auto]. rewrite P in F. injection F as <-. auto.
      * intros x. rewrite B, (push_new_in N.eqb N.eqb_eq), (push_new_in N.eqb N.eqb_eq), in_flat_map. cbn [In]. split.
        -- intros [[H|[[]|(id & I & S)]]|(q & h & id & I & F & K)]; [auto| |right; exists q, h, id; auto]. right. exists p, html, id. apply (links_found digit store_site html id N34 N104 eq_refl) in I.
           split; [now left|split; [exact P|split; [exact I|]]]. destruct (dlc_of lower id); [destruct S as [->|[]]; reflexivity|destruct S].
        -- intros [H|(q & h & id & [<-|I] & F & K & S)]; [auto| |right; exists q, h, id; auto]. rewrite P in F. injection F as <-. left. right. right. exists id.
           split; [now apply (links_found digit store_site html id N34 N104 eq_refl)|]. rewrite S. now left.
    + apply IH in H as (A & B & C). cbn [flat_map]. rewrite P. split; [|split].
      * intros x. rewrite A. cbn [In]. split; (intros [H|(q & h & I & F & K)]; [auto|]); [right; exists q, h; auto|]. destruct I as [<-|I]; [congruence|]. right. exists q, h. auto.
      * intros x. rewrite B. cbn [In]. split; (intros [H|(q & h & id & I & F & K)]; [auto|]); [right; exists q, h, id; auto|]. destruct I as [<-|I]; [congruence|]. right. exists q, h, id. auto.
      * rewrite C, <- app_assoc. reflexivity.
Qed.
(** ** Paths *)
Lemma join_prefixed : forall base p, prefixed p = true -> join_path Windows base p = p.
Proof. intros base p H. cbn [join_path]. now rewrite H. Qed.
Lemma prefixed_app : forall a b, prefixed a = true -> prefixed (a ++ b) = true.
Proof. intros [|x [|y a]] b H; try discriminate. exact H. Qed.
Lemma self_prefixed : forall w, prefixed (cwd w) = true -> prefixed (self_mod Windows w) = true.
Proof. intros w H. unfold self_mod. cbn [app]. change (join_path Windows (cwd w) (bs ".hemttout/dev")) with (under_path Windows (cwd w) (bs ".hemttout/dev")). now apply prefixed_app. Qed.
Lemma digits_not_prefixed : forall digit id, digit_class digit -> digits digit id -> prefixed id = false.
Proof.
  intros digit id [DA _] [NE D]. destruct id as [|a [|b id]]; try reflexivity. inversion D as [|? ? Da D']; subst. inversion D' as [|? ? Db _]; subst. cbn [prefixed].
  assert (N58 : b <> 58) by (intros ->; rewrite DA in Db by lia; discriminate). assert (N47 : b <> 47) by (intros ->; rewrite DA in Db by lia; discriminate).
  assert (N92 : b <> 92) by (intros ->; rewrite DA in Db by lia; discriminate). unfold is_sep. destruct (N.eqb_spec b 58); [contradiction|]. destruct (N.eqb_spec b 47); [contradiction|]. destruct (N.eqb_spec b 92); [contradiction|].
  now rewrite !Bool.andb_false_r.
Qed.
Lemma published_digits : forall digit w id, published_as digit w id -> digits digit id.
Proof. intros digit w id (c & a & _ & (D & _) & _). exact D. Qed.
Lemma not_published : forall digit w m, digit_class digit -> negb (same_id (Some m) (meta_id digit w)) = true <-> ~ published_as digit w m.
Proof.
  intros digit w m DC. rewrite <- (meta_published digit w m DC). unfold same_id. destruct (meta_id digit w) as [i|].
  - destruct (eqb_bytes m i) eqn:E; cbn; split; try discriminate; try tauto.
    + apply eqb_bytes_spec in E. subst. intros H. exfalso. now apply H.
    + intros _ [= ->]. now rewrite eqb_bytes_refl in E.
  - cbn. split; [discriminate|reflexivity].
Qed.
Lemma mission_found : forall pl w m a, mission_arg pl w m = inl a <-> exists p, mission_file pl w m p /\ a = bs """" ++ p ++ bs """".
Proof.
  intros pl w m a. unfold mission_arg, mission_file, mission_places. destruct (absolute pl m); [split; [discriminate|]; intros (p & (H & _) & _); discriminate|]. cbv zeta.
  set (p1 := if ends_with pl _ _ then _ else _). set (p2 := join_path pl (join_path pl (join_path pl _ _) m) _). destruct (is_file w p1) eqn:E1.
  - rewrite E1. split.
    + intros [= <-]. exists p1. split; [|reflexivity]. split; [reflexivity|]. exists [], [p2]. repeat split; auto. intros q [].
    + intros (p & (_ & l1 & l2 & E & F & N0) & ->). destruct l1 as [|x l1]; injection E as E1' E2'; [now subst|]. subst x. rewrite (N0 p1) in E1; [discriminate|now left].
  - destruct (is_file w p2) eqn:E2.
    + split.
      * intros [= <-]. exists p2. split; [|reflexivity]. split; [reflexivity|]. exists [p1], []. repeat split; auto. intros q [<-|[]]. exact E1.
      * intros (p & (_ & l1 & l2 & E & F & N0) & ->). destruct l1 as [|x [|y l1]]; injection E as E1' E2'; subst; [congruence|reflexivity|destruct l1; discriminate].
    + split; [discriminate|]. intros (p & (_ & l1 & l2 & E & F & N0) & ->). destruct l1 as [|x [|y l1]]; injection E as E1' E2'; subst; [congruence|congruence|destruct l1; discriminate].
Qed.
