(** The compiler preserves the meaning of a script. *)
From Coq Require Import String.
From Verif Require Import Base.Tactics Base.Bytes Base.Ascii Base.Text Preproc.Model Preproc.LexModel Workspace.ProcessedModel Workspace.ProcessedProofs Sqf.Ast Sqf.CompileModel Sqf.CompileSpec.
Local Open Scope N_scope.
Local Open Scope list_scope.

(** ** Small facts *)
Lemma same_text_spec a : forall b, same_text a b = true <-> a = b.
Proof.
  induction a as [|x a IH]; intros [|y b]; cbn [same_text]; try (split; congruence).
  rewrite Bool.andb_true_iff, N.eqb_eq, IH. split; [intros [-> ->]; reflexivity|intro E; injection E; auto].
Qed.
Lemma list_eqb_spec {A} (f : A -> A -> bool) l : (forall x, In x l -> forall y, f x y = true -> x = y) -> forall m, list_eqb f l m = true -> l = m.
Proof.
  induction l as [|x l IH]; intros H [|y m] E; cbn [list_eqb] in E; try discriminate; [reflexivity|].
  apply Bool.andb_true_iff in E. destruct E as [E1 E2]. f_equal; [apply H; cbn; auto|apply IH; auto; intros; apply H; cbn; auto].
Qed.
Lemma info_eqb_eq a b : info_eqb a b = true -> a = b.
Proof. destruct a, b. unfold info_eqb. cbn. rewrite !Bool.andb_true_iff, !N.eqb_eq. intros [[-> ->] ->]. reflexivity. Qed.
Lemma pointer_eqb_eq a b : pointer_eqb a b = true -> a = b.
Proof. destruct a, b; cbn; try discriminate; rewrite ?Bool.andb_true_iff, ?N.eqb_eq; [congruence|intros [-> ->]; reflexivity]. Qed.
Lemma instr_eqb_eq a b : instr_eqb a b = true -> a = b.
Proof.
  destruct a, b; cbn; try discriminate; try reflexivity; rewrite ?Bool.andb_true_iff, ?N.eqb_eq; try congruence;
  intros [-> H]; apply info_eqb_eq in H; congruence.
Qed.

Section ConstantInd.
  Context (P : constant -> Prop) (Hc : forall c q, P (KCode c q)) (Hs : forall s, P (KString s)) (Hn : forall x, P (KScalar x)) (Hb : forall b, P (KBool b))
    (Ha : forall l, Forall P l -> P (KArray l)) (Hq : forall l, Forall P l -> P (KConsumable l)) (Hu : forall x, P (KNular x)).
  Fixpoint constant_ind' (k : constant) : P k :=
    match k with
    | KCode c q => Hc c q | KString s => Hs s | KScalar x => Hn x | KBool b => Hb b | KNular x => Hu x
    | KArray l => Ha l ((fix go l := match l return Forall P l with [] => Forall_nil P | x :: r => Forall_cons x (constant_ind' x) (go r) end) l)
    | KConsumable l => Hq l ((fix go l := match l return Forall P l with [] => Forall_nil P | x :: r => Forall_cons x (constant_ind' x) (go r) end) l)
    end.
End ConstantInd.

Lemma opt_map_ext {A B} (f g : A -> option B) l : Forall (fun x => f x = g x) l -> opt_map f l = opt_map g l.
Proof. induction 1 as [|x l H _ IH]; [reflexivity|]. cbn [opt_map]. now rewrite H, IH. Qed.
Lemma opt_map_app {A B} (f : A -> option B) l m x y : opt_map f l = Some x -> opt_map f m = Some y -> opt_map f (l ++ m) = Some (x ++ y).
Proof.
  revert x. induction l as [|a l IH]; intros x; cbn [opt_map app]; [intro E; apply Some_inj in E; subst; auto|].
  destruct (f a); [|discriminate]. destruct (opt_map f l) as [z|]; [|discriminate]. intros E Em. apply Some_inj in E. subst x.
  rewrite (IH z eq_refl Em). reflexivity.
Qed.
Lemma opt_map_mono {A B} (f g : A -> option B) l : (forall x y, In x l -> f x = Some y -> g x = Some y) -> forall x, opt_map f l = Some x -> opt_map g l = Some x.
Proof.
  induction l as [|a l IH]; intros H x; cbn [opt_map]; [auto|]. destruct (f a) as [b|] eqn:E; [|discriminate].
  destruct (opt_map f l) as [z|] eqn:Ez; [|discriminate]. intro Q. rewrite (H a b), (IH ltac:(intros; apply H; cbn; auto) z eq_refl); cbn; auto.
Qed.
Lemma opt_map_concat {A B} (f : A -> option B) ls : forall xs, opt_map (opt_map f) ls = Some xs -> opt_map f (concat ls) = Some (concat xs).
Proof.
  induction ls as [|l ls IH]; intros xs; cbn [opt_map concat]; [intro E; apply Some_inj in E; subst; reflexivity|].
  destruct (opt_map f l) as [x|] eqn:E; [|discriminate]. destruct (opt_map (opt_map f) ls) as [ys|]; [|discriminate].
  intro Q. apply Some_inj in Q. subst xs. cbn [concat]. apply opt_map_app; auto.
Qed.

(** [l] is a beginning of [m]. *)
Definition begins {A} (l m : list A) : Prop := exists r, m = l ++ r.
Lemma begins_refl {A} (l : list A) : begins l l.
Proof. exists []. now rewrite app_nil_r. Qed.
Lemma begins_trans {A} (a b c : list A) : begins a b -> begins b c -> begins a c.
Proof. intros [r ->] [s ->]. exists (r ++ s). now rewrite app_assoc. Qed.
Lemma begins_nth {A} (l m : list A) i x : begins l m -> nth_n l i = Some x -> nth_n m i = Some x.
Proof. intros [r ->] H. unfold nth_n in *. rewrite nth_error_app1; auto. apply nth_error_Some. congruence. Qed.
Lemma begins_app {A} (l r : list A) : begins l (l ++ r).
Proof. now exists r. Qed.

Lemma index_of_some {A} (f : A -> A -> bool) l x i : index_of f l x = Some i -> exists y a b, l = a ++ y :: b /\ f y x = true /\ i = N.of_nat (length a).
Proof.
  revert i. induction l as [|y l IH]; intros i; cbn [index_of]; [discriminate|]. destruct (f y x) eqn:E.
  - intro Q. apply Some_inj in Q. subst i. now exists y, [], l.
  - destruct (index_of f l x) as [j|]; cbn [option_map]; [|discriminate]. intro Q. apply Some_inj in Q. subst i.
    destruct (IH j eq_refl) as (z & a & b & -> & H & ->). exists z, (y :: a), b. repeat split; auto. cbn [length]. lia.
Qed.
Lemma nth_n_app {A} (a : list A) y b : nth_n (a ++ y :: b) (N.of_nat (length a)) = Some y.
Proof. unfold nth_n. rewrite Nnat.Nat2N.id, nth_error_app2, Nat.sub_diag by lia. reflexivity. Qed.

(** ** Loading *)
Section Load.
  Context (main : text) (files : list text).
  Notation load_instr := (load_instr files).
  Notation load_constant := (load_constant main files).
  Notation load_pool := (load_pool main files).

  Lemma load_named_mono ns ns' f n si x : begins ns ns' -> load_named files ns f n si = Some x -> load_named files ns' f n si = Some x.
  Proof. intros B. unfold load_named. destruct (nth_n ns n) as [y|] eqn:E; [|discriminate]. now rewrite (begins_nth _ _ _ _ B E). Qed.
  Lemma load_instr_mono vs vs' ns ns' i x : begins vs vs' -> begins ns ns' -> load_instr vs ns i = Some x -> load_instr vs' ns' i = Some x.
  Proof.
    intros Bv Bn. destruct i; cbn [CompileSpec.load_instr]; try (apply (load_named_mono _ _ _ _ _ _ Bn)); auto.
    destruct (nth_n vs c) as [v|] eqn:E; [|discriminate]. now rewrite (begins_nth _ _ _ _ Bv E).
  Qed.
  Lemma load_instrs_mono vs vs' ns ns' l x : begins vs vs' -> begins ns ns' -> opt_map (load_instr vs ns) l = Some x -> opt_map (load_instr vs' ns') l = Some x.
  Proof. intros Bv Bn. apply opt_map_mono. intros i y _. now apply load_instr_mono. Qed.
  Lemma load_pointer_mono vs vs' q s : begins vs vs' -> load_pointer main vs q = Some s -> load_pointer main vs' q = Some s.
  Proof. intro B. destruct q; cbn [load_pointer]; auto. destruct (nth_n vs i) as [v|] eqn:E; [|discriminate]. now rewrite (begins_nth _ _ _ _ B E). Qed.
  Lemma load_constant_mono vs vs' ns ns' : begins vs vs' -> begins ns ns' -> forall k v, load_constant vs ns k = Some v -> load_constant vs' ns' k = Some v.
  Proof.
    intros Bv Bn. induction k using constant_ind'; intros v; cbn [CompileSpec.load_constant]; auto.
    - destruct (load_pointer main vs q) as [s|] eqn:Eq; [|discriminate]. destruct (opt_map _ c) as [b|] eqn:Eb; [|discriminate].
      rewrite (load_pointer_mono _ _ _ _ Bv Eq), (load_instrs_mono _ _ _ _ _ _ Bv Bn Eb). auto.
    - destruct (opt_map _ l) as [b|] eqn:Eb; [|discriminate]. cbn [option_map]. intros <-.
      erewrite (opt_map_mono _ (load_constant vs' ns') l); [reflexivity| |exact Eb]. intros. rewrite Forall_forall in H. auto.
    - destruct (opt_map _ l) as [b|] eqn:Eb; [|discriminate]. cbn [option_map]. intros <-.
      erewrite (opt_map_mono _ (load_constant vs' ns') l); [reflexivity| |exact Eb]. intros. rewrite Forall_forall in H. auto.
  Qed.
  (** Equal constants are the same value. *)
  Lemma constant_eqb_load vs ns : forall k k', constant_eqb k k' = true -> load_constant vs ns k = load_constant vs ns k'.
  Proof.
    induction k using constant_ind'; intros [] E; cbn [constant_eqb] in E; try discriminate; cbn [CompileSpec.load_constant].
    - apply Bool.andb_true_iff in E. destruct E as [E1 E2]. apply pointer_eqb_eq in E2. apply list_eqb_spec in E1; [|intros; now apply instr_eqb_eq]. now subst.
    - apply same_text_spec in E. now subst.
    - apply N.eqb_eq in E. now subst.
    - apply Bool.eqb_prop in E. now subst.
    - revert l0 E. induction H as [|x l Hx _ IH]; intros [|y m] E; cbn [list_eqb] in E; try discriminate; [reflexivity|].
      apply Bool.andb_true_iff in E. destruct E as [E1 E2]. cbn [opt_map]. rewrite (Hx _ E1). specialize (IH _ E2).
      destruct (load_constant vs ns y); [|reflexivity]. destruct (opt_map _ l), (opt_map _ m); cbn in *; congruence.
    - unfold eq_ignore_case in E. apply same_text_spec in E. now rewrite E.
  Qed.

  Lemma load_pool_app ns ks : forall vs ks', load_pool ns vs (ks ++ ks') = match load_pool ns vs ks with Some vs' => load_pool ns vs' ks' | None => None end.
  Proof. induction ks as [|k ks IH]; intros vs ks'; cbn [app CompileSpec.load_pool]; [reflexivity|]. destruct (load_constant vs ns k); auto. Qed.
  Lemma load_pool_begins ns ks : forall vs vs', load_pool ns vs ks = Some vs' -> begins vs vs' /\ length vs' = (length vs + length ks)%nat.
  Proof.
    induction ks as [|k ks IH]; intros vs vs'; cbn [CompileSpec.load_pool].
    - intro Q. apply Some_inj in Q. subst. split; [apply begins_refl|cbn; lia].
    - destruct (load_constant vs ns k) as [v|]; [|discriminate]. intro Q. apply IH in Q. destruct Q as [B L]. split.
      + eapply begins_trans; [apply begins_app|exact B].
      + rewrite L, app_length. cbn. lia.
  Qed.
  Lemma load_pool_mono ns ns' : begins ns ns' -> forall ks vs vs', load_pool ns vs ks = Some vs' -> load_pool ns' vs ks = Some vs'.
  Proof.
    intro B. induction ks as [|k ks IH]; intros vs vs'; cbn [CompileSpec.load_pool]; auto. destruct (load_constant vs ns k) as [v|] eqn:E; [|discriminate].
    rewrite (load_constant_mono vs vs ns ns' (begins_refl _) B _ _ E). auto.
  Qed.

  (** The pools of [c] load to [vs]. *)
  Definition good (c : ctx) (vs : list value) : Prop := load_pool (snd c) [] (fst c) = Some vs.
  (** From [c] to [c'] pools grow. *)
  Definition grown (c : ctx) (vs : list value) (c' : ctx) (vs' : list value) : Prop := begins (snd c) (snd c') /\ begins vs vs' /\ good c' vs'.
  Lemma grown_refl c vs : good c vs -> grown c vs c vs.
  Proof. intro G. split; [apply begins_refl|split; [apply begins_refl|exact G]]. Qed.
  Lemma grown_trans c1 v1 c2 v2 c3 v3 : grown c1 v1 c2 v2 -> grown c2 v2 c3 v3 -> grown c1 v1 c3 v3.
  Proof. intros (A1 & A2 & _) (B1 & B2 & B3). split; [|split]; eauto using begins_trans. Qed.

  Lemma add_constant_good k c vs v i c' : good c vs -> load_constant vs (snd c) k = Some v -> add_constant k c = Ok (i, c') ->
    exists vs', grown c vs c' vs' /\ nth_n vs' i = Some v.
  Proof.
    unfold add_constant, add_or_get. intros G Hk H. destruct (index_of constant_eqb (fst c) k) as [j|] eqn:E; cbn [obind] in H.
    - destruct (N.ltb_spec j (2 ^ 16)); [|discriminate]. injection H as <- <-. destruct (index_of_some _ _ _ _ E) as (y & a & b & Ec & Ey & ->).
      exists vs. assert (good (fst c, snd c) vs) as G' by (destruct c; exact G). split; [split; [apply begins_refl|split; [apply begins_refl|exact G']]|].
      unfold good in G. rewrite Ec, load_pool_app in G. destruct (load_pool (snd c) [] a) as [va|] eqn:Ea; [|discriminate].
      cbn [CompileSpec.load_pool] in G. destruct (load_constant va (snd c) y) as [vy|] eqn:Ey'; [|discriminate].
      apply load_pool_begins in Ea. destruct Ea as [_ La]. apply load_pool_begins in G. destruct G as [B _].
      assert (vy = v) as ->.
      { apply Some_inj. rewrite <- Hk, <- (constant_eqb_load vs (snd c) y k Ey). symmetry. eapply load_constant_mono; [|apply begins_refl|exact Ey'].
        eapply begins_trans; [apply begins_app|exact B]. }
      eapply begins_nth; [exact B|]. cbn [length] in La. replace (length a) with (length va) by lia. apply nth_n_app.
    - destruct (N.ltb_spec (N.of_nat (length (fst c))) (2 ^ 16)); [|discriminate]. injection H as <- <-.
      exists (vs ++ [v]). assert (length vs = length (fst c)) as L. { apply load_pool_begins in G. destruct G as [_ ->]. reflexivity. }
      split; [|rewrite <- L; apply nth_n_app]. split; [apply begins_refl|split; [apply begins_app|]]. unfold good in *. cbn [fst snd].
      rewrite load_pool_app, G. cbn [CompileSpec.load_pool]. now rewrite Hk.
  Qed.
  Lemma add_name_good x c vs i c' : good c vs -> add_name x c = Ok (i, c') -> grown c vs c' vs /\ nth_n (snd c') i = Some (to_ascii_lower x).
  Proof.
    unfold add_name, normalize, add_or_get. intros G H. destruct (is_valid_command _); cbn [obind] in H; [|discriminate].
    destruct (index_of same_text (snd c) (to_ascii_lower x)) as [j|] eqn:E; cbn [obind] in H.
    - destruct (N.ltb_spec j (2 ^ 16)); [|discriminate]. injection H as <- <-. destruct (index_of_some _ _ _ _ E) as (y & a & b & Ec & Ey & ->).
      apply same_text_spec in Ey. subst y. split.
      + destruct c. now apply grown_refl.
      + cbn [snd]. rewrite Ec. apply nth_n_app.
    - destruct (N.ltb_spec (N.of_nat (length (snd c))) (2 ^ 16)); [|discriminate]. injection H as <- <-. split; [|apply nth_n_app].
      split; [apply begins_app|split; [apply begins_refl|]]. unfold good in *. cbn [fst snd]. eapply load_pool_mono; [apply begins_app|exact G].
  Qed.

  (** A constant is pushed as the postfix form of its value, arrays being made of their elements. *)
  Fixpoint spread (k : constant) (v : value) {struct k} : list action :=
    match k, v with
    | KArray l, VArray vs =>
        (fix go l vs := match l, vs with k :: l, v :: vs => spread k v ++ go l vs | _, _ => [] end) l vs ++ [Make (N.of_nat (length l))]
    | _, _ => [Lit v]
    end.
  Definition spreads := fix go l vs := match l, vs with k :: l, v :: vs => spread k v ++ go l vs | _, _ => [] end.

  Lemma push_constant_good : forall k c vs v is c', good c vs -> load_constant vs (snd c) k = Some v -> push_constant k c = Ok (is, c') ->
    exists vs', grown c vs c' vs' /\ opt_map (load_instr vs' (snd c')) is = Some (spread k v).
  Proof.
    assert (forall k c vs v is c', good c vs -> load_constant vs (snd c) k = Some v -> (do (i, c) <- add_constant k c ;; Ok ([Push i], c)) = Ok (is, c') ->
      exists vs', grown c vs c' vs' /\ opt_map (load_instr vs' (snd c')) is = Some [Lit v]) as One.
    { intros k c vs v is c' G L H. destruct (add_constant k c) as [[i c1]| | |] eqn:E; cbn [obind] in H; try discriminate. injection H as <- <-.
      destruct (add_constant_good _ _ _ _ _ _ G L E) as (vs' & G' & N). exists vs'. split; [exact G'|]. cbn [opt_map CompileSpec.load_instr]. now rewrite N. }
    induction k using constant_ind'; intros c0 vs v is c' G L H'; cbn [push_constant] in H'; try (eapply One; eauto; fail).
    cbn [CompileSpec.load_constant] in L. destruct (opt_map (load_constant vs (snd c0)) l) as [ws|] eqn:Ew; [|discriminate].
    cbn [option_map] in L. apply Some_inj in L. subst v.
    destruct (each push_constant l c0) as [[iss c1]| | |] eqn:Ei; cbn [obind] in H'; try discriminate.
    destruct (N.ltb_spec (N.of_nat (length l)) (2 ^ 16)); [|discriminate]. injection H' as <- <-. cbn [spread].
    assert (exists vs', grown c0 vs c1 vs' /\ opt_map (load_instr vs' (snd c1)) (concat iss) = Some (spreads l ws)) as (vs' & G' & E').
    { clear H0. revert c0 vs ws iss c1 G Ew Ei. induction H as [|k l Hk _ IH]; intros c0 vs ws iss c1 G Ew Ei; cbn [each] in Ei.
      - injection Ei as <- <-. cbn [opt_map] in Ew. apply Some_inj in Ew. subst ws. exists vs. split; [now apply grown_refl|reflexivity].
      - cbn [opt_map] in Ew. destruct (load_constant vs (snd c0) k) as [v|] eqn:Ek; [|discriminate]. destruct (opt_map _ l) as [ws'|] eqn:El; [|discriminate].
        apply Some_inj in Ew. subst ws. destruct (push_constant k c0) as [[js c2]| | |] eqn:Ep; cbn [obind] in Ei; try discriminate.
        destruct (each push_constant l c2) as [[jss c3]| | |] eqn:Er; cbn [obind] in Ei; try discriminate. injection Ei as <- <-.
        destruct (Hk _ _ _ _ _ G Ek Ep) as (v2 & G2 & E2). assert (opt_map (load_constant v2 (snd c2)) l = Some ws') as El'.
        { eapply opt_map_mono; [|exact El]. intros x y _. apply load_constant_mono; apply G2. }
        destruct (IH _ _ _ _ _ (proj2 (proj2 G2)) El' Er) as (v3 & G3 & E3). exists v3. split; [eapply grown_trans; eauto|].
        cbn [concat spreads]. apply opt_map_app; [|exact E3]. eapply load_instrs_mono; [apply G3|apply G3|exact E2]. }
    exists vs'. split; [exact G'|]. apply opt_map_app; [exact E'|reflexivity].
  Qed.
End Load.

(** ** The compiler *)
Section Compile.
  Context (p : processed) (virtual : text -> text).
  Notation files := (map (fun f => virtual (fst f)) (sources p)).
  Notation main := (o_text p).
  Hypothesis small : byte_len main < 2 ^ 32.
  Notation load_instr := (load_instr files).
  Notation load_constant := (load_constant main files).
  Notation good := (good main files).
  Notation grown := (grown main files).
  Notation postfix := (postfix p virtual).
  Notation postfix_stmt := (postfix_stmt p virtual).
  Notation constant_value := (constant_value p virtual).

  Lemma take_len i s : byte_len (take i s) <= byte_len s.
  Proof. unfold take. rewrite <- (firstn_skipn (N.to_nat i) s) at 2. rewrite byte_len_app. lia. Qed.
  Lemma offset_exact i : get_byte_offset p i = byte_len (take i main).
  Proof. unfold get_byte_offset. apply N.mod_small. pose proof (take_len i main). lia. Qed.
  Lemma position_nth path l i : position path l = Some i -> exists c, nth_error l i = Some (path, c).
  Proof.
    revert i. induction l as [|[q c] l IH]; intros i; cbn [position]; [discriminate|]. destruct (text_eqb q path) eqn:E.
    - apply text_eqb_spec in E. subst. intro Q. apply Some_inj in Q. subst. exists c. reflexivity.
    - destruct (position path l) as [j|]; [|discriminate]. cbn [option_map]. intro Q. apply Some_inj in Q. subst i. destruct (IH j eq_refl) as [d D]. exists d. exact D.
  Qed.
  Lemma location_good sp si : location_to_source p sp = Ok si -> load_place files si = Some (place_of p virtual (fst sp)).
  Proof.
    unfold location_to_source, load_place, place_of. destruct (mapping_at p (fst sp)) as [m|]; [|discriminate].
    destruct (position _ _) as [i|] eqn:E; [|discriminate]. destruct (N.ltb_spec (N.of_nat i) (2 ^ 8)); [|discriminate]. intro Q. injection Q as <-.
    cbn [si_file si_offset si_line]. unfold nth_n. rewrite Nnat.Nat2N.id. destruct (position_nth _ _ _ E) as [c C].
    rewrite (map_nth_error _ _ _ C), offset_exact. reflexivity.
  Qed.
  Lemma slice_empty a s : slice s (byte_len (take a s)) (byte_len (take a s)) = Some [].
  Proof.
    pose proof (slice_app (take a s) [] (drop a s)) as X. rewrite app_nil_r in X. cbn [app] in X. unfold take, drop in *. now rewrite firstn_skipn in X.
  Qed.
  Lemma block_good content sp q vs : block_pointer p content sp = Ok q -> load_pointer main vs q = Some (block_text p content sp).
  Proof.
    unfold block_pointer, block_text. destruct sp as [a b]. cbn [fst snd]. destruct (extract p a b) as [s|] eqn:E; [|discriminate]. intro Q. injection Q as <-.
    cbn [load_pointer]. rewrite offset_exact. destruct content as [|x c].
    - rewrite N.add_0_r. apply slice_empty.
    - destruct (N.le_gt_cases a b) as [L|L].
      + rewrite extract_spec in E by exact L. apply Some_inj in E. subst s. destruct (take_cut a b main L) as [E1 E2].
        pose proof (slice_app (take a main) (take (b - a) (drop a main)) (drop (b - a) (drop a main))) as X. rewrite <- E1, byte_len_app in X.
        rewrite N.mod_small; [exact X|]. rewrite E1, !byte_len_app in small. clear - small. lia.
      + replace (b - a) with 0 by lia. unfold extract in E. destruct (N.eqb_spec a b); [lia|]. rewrite offsets_go_spec, !N.add_0_l, !N.sub_0_r in E.
        assert (byte_len (take b main) <= byte_len (take a main)) as Le.
        { destruct (take_cut b a main ltac:(lia)) as [_ ->]. rewrite byte_len_app. lia. }
        destruct (N.eq_dec (byte_len (take b main)) (byte_len (take a main))) as [Eq|Ne].
        * rewrite Eq, slice_empty in E. apply Some_inj in E. subst s. cbn [byte_len fold_right]. rewrite N.mod_0_l by lia. rewrite N.add_0_r.
          change (take 0 (drop a main)) with (@nil N). apply slice_empty.
        * unfold slice in E. replace (_ <? _) with true in E by (symmetry; apply N.ltb_lt; lia). discriminate.
  Qed.

  Lemma named_good f g x sp c vs is c' : (forall vs ns n si, load_instr vs ns (f n si) = load_named files ns g n si) ->
    good c vs -> named p f x sp c = Ok (is, c') ->
    grown c vs c' vs /\ opt_map (load_instr vs (snd c')) is = Some [g (to_ascii_lower x) (place_of p virtual (fst sp))].
  Proof.
    intros Hf G. unfold named. destruct (add_name x c) as [[i c1]| | |] eqn:E; cbn [obind]; try discriminate.
    destruct (location_to_source p sp) as [si| | |] eqn:El; cbn [obind]; try discriminate. intro Q. injection Q as <- <-.
    destruct (add_name_good _ _ _ _ _ _ _ G E) as [G' N]. split; [exact G'|]. cbn [opt_map]. rewrite Hf. unfold load_named.
    now rewrite N, (location_good _ _ El).
  Qed.

  Definition const_ok (e : expr) : Prop := forall c vs k c', good c vs -> compile_constant p e c = Ok (k, c') ->
    exists vs', grown c vs c' vs' /\
      match k with
      | Some k => exists v, constant_value e = Some v /\ load_constant vs' (snd c') k = Some v /\
          match e with EConsumable _ _ => spread k v = [Lit v] /\ postfix e = [Lit v] | _ => spread k v = postfix e end
      | None => constant_value e = None
      end.
  Definition instr_ok (e : expr) : Prop := forall c vs is c', good c vs -> compile_instructions p e c = Ok (is, c') ->
    exists vs', grown c vs c' vs' /\ opt_map (load_instr vs' (snd c')) is = Some (postfix e).
  Definition stmt_ok (s : stmt) : Prop := forall c vs is c', good c vs -> comp_stmt p s c = Ok (is, c') ->
    exists vs', grown c vs c' vs' /\ opt_map (load_instr vs' (snd c')) is = Some (postfix_stmt s).

  Lemma each_ok {A} (f : A -> ctx -> outcome (list instr * ctx)) (g : A -> list action) l :
    Forall (fun x => forall c vs is c', good c vs -> f x c = Ok (is, c') -> exists vs', grown c vs c' vs' /\ opt_map (load_instr vs' (snd c')) is = Some (g x)) l ->
    forall c vs iss c', good c vs -> each f l c = Ok (iss, c') -> exists vs', grown c vs c' vs' /\ opt_map (load_instr vs' (snd c')) (concat iss) = Some (flat_map g l).
  Proof.
    induction 1 as [|x l Hx _ IH]; intros c vs iss c' G H; cbn [each] in H.
    - injection H as <- <-. exists vs. split; [now apply grown_refl|reflexivity].
    - destruct (f x c) as [[js c2]| | |] eqn:Ep; cbn [obind] in H; try discriminate.
      destruct (each f l c2) as [[jss c3]| | |] eqn:Er; cbn [obind] in H; try discriminate. injection H as <- <-.
      destruct (Hx _ _ _ _ G Ep) as (v2 & G2 & E2). destruct (IH _ _ _ _ (proj2 (proj2 G2)) Er) as (v3 & G3 & E3).
      exists v3. split; [eapply grown_trans; eauto|]. cbn [concat flat_map]. apply opt_map_app; [|exact E3]. eapply load_instrs_mono; [apply G3|apply G3|exact E2].
  Qed.
  Lemma each_opt_ok l : Forall const_ok l -> forall c vs ks c', good c vs -> each_opt (compile_constant p) l c = Ok (ks, c') ->
    exists vs', grown c vs c' vs' /\
      match ks with
      | Some ks => exists ws, opt_map constant_value l = Some ws /\ opt_map (load_constant vs' (snd c')) ks = Some ws /\ length ks = length l /\ spreads ks ws = flat_map postfix l
      | None => opt_map constant_value l = None
      end.
  Proof.
    induction 1 as [|e l He _ IH]; intros c vs ks c' G H; cbn [each_opt] in H.
    - injection H as <- <-. exists vs. split; [now apply grown_refl|]. exists []. auto.
    - destruct (compile_constant p e c) as [[k c2]| | |] eqn:Ek; cbn [obind] in H; try discriminate.
      destruct (He _ _ _ _ G Ek) as (v2 & G2 & E2). destruct k as [k|].
      + destruct E2 as (v & Cv & Lk & Sp). destruct (each_opt _ l c2) as [[kss c3]| | |] eqn:Er; cbn [obind] in H; try discriminate. injection H as <- <-.
        destruct (IH _ _ _ _ (proj2 (proj2 G2)) Er) as (v3 & G3 & E3). exists v3. split; [eapply grown_trans; eauto|].
        destruct kss as [ks'|]; cbn [option_map opt_map]; rewrite Cv; [|now rewrite E3].
        destruct E3 as (ws & -> & L3 & Len & Sp3). exists (v :: ws). split; [reflexivity|]. cbn [opt_map].
        rewrite L3, (load_constant_mono _ _ v2 v3 (snd c2) (snd c3) (proj1 (proj2 G3)) (proj1 G3) _ _ Lk).
        split; [reflexivity|]. split; [cbn; lia|]. cbn [spreads flat_map]. fold spreads. rewrite Sp3. f_equal. destruct e; try exact Sp. destruct Sp as [-> ->]. reflexivity.
      + injection H as <- <-. exists v2. split; [exact G2|]. cbn [opt_map]. now rewrite E2.
  Qed.

  Lemma const_code content src sp c : compile_constant p (ECode content src sp) c =
    (do (is, c) <- each (comp_stmt p) content c ;; do q <- block_pointer p content sp ;; Ok (Some (KCode (concat is) q), c)).
  Proof. reflexivity. Qed.
  Lemma const_array l sp c : compile_constant p (EArray l sp) c = (do (ks, c) <- each_opt (compile_constant p) l c ;; Ok (option_map KArray ks, c)).
  Proof. reflexivity. Qed.
  Lemma const_consumable l sp c : compile_constant p (EConsumable l sp) c = (do (ks, c) <- each_opt (compile_constant p) l c ;; Ok (option_map KConsumable ks, c)).
  Proof. reflexivity. Qed.
  Lemma const_nular x sp c : compile_constant p (ENular x sp) c =
    if is_constant_command x then do y <- normalize x ;; Ok (Some (KNular y), c) else Ok (None, c).
  Proof. reflexivity. Qed.

  Lemma stmt_global x e sp c : comp_stmt p (SGlobal x e sp) c =
    (do (is, c) <- compile_instructions p e c ;; do (js, c) <- named p AssignTo x sp c ;; Ok (EndStatement :: is ++ js, c)).
  Proof. reflexivity. Qed.
  Lemma stmt_local x e sp c : comp_stmt p (SLocal x e sp) c =
    (do (is, c) <- compile_instructions p e c ;; do (js, c) <- named p AssignToLocal x sp c ;; Ok (EndStatement :: is ++ js, c)).
  Proof. reflexivity. Qed.
  Lemma stmt_plain e sp c : comp_stmt p (SExpr e sp) c = (do (is, c) <- compile_instructions p e c ;; Ok (EndStatement :: is, c)).
  Proof. reflexivity. Qed.

  Lemma instr_of_const e c : compile_instructions p e c = (do (k, c) <- compile_constant p e c ;;
      match k with
      | Some k => push_constant k c
      | None =>
          match e with
          | EArray l sp =>
              if N.of_nat (length l) <? 2 ^ 16 then
                do (is, c) <- each (compile_instructions p) l c ;;
                do si <- location_to_source p sp ;;
                Ok (concat is ++ [MakeArray (N.of_nat (length l)) si], c)
              else ListTooLong
          | ENular x sp => named p CallNular x sp c
          | EUnary u e sp =>
              do (is, c) <- compile_instructions p e c ;; do (js, c) <- named p CallUnary (unary_str u) sp c ;; Ok (is ++ js, c)
          | EBinary b e1 e2 sp =>
              do (is, c) <- compile_instructions p e1 c ;; do (js, c) <- compile_instructions p e2 c ;;
              do (ks, c) <- named p CallBinary (binary_str b) sp c ;; Ok (is ++ js ++ ks, c)
          | EVar x sp => named p GetVariable x sp c
          | EConsumable _ _ | ECode _ _ _ | EString _ _ _ | ENumber _ _ | EBool _ _ => Panic
          end
      end).
  Proof. destruct e; reflexivity. Qed.

  Lemma instr_from_const e : const_ok e ->
    (forall c vs is c', good c vs -> constant_value e = None ->
      match e with
      | EArray l sp =>
          (if N.of_nat (length l) <? 2 ^ 16 then
            do (is, c) <- each (compile_instructions p) l c ;;
            do si <- location_to_source p sp ;;
            Ok (concat is ++ [MakeArray (N.of_nat (length l)) si], c)
          else ListTooLong) = Ok (is, c')
      | ENular x sp => named p CallNular x sp c = Ok (is, c')
      | EUnary u e sp =>
          (do (is, c) <- compile_instructions p e c ;; do (js, c) <- named p CallUnary (unary_str u) sp c ;; Ok (is ++ js, c)) = Ok (is, c')
      | EBinary b e1 e2 sp =>
          (do (is, c) <- compile_instructions p e1 c ;; do (js, c) <- compile_instructions p e2 c ;;
          do (ks, c) <- named p CallBinary (binary_str b) sp c ;; Ok (is ++ js ++ ks, c)) = Ok (is, c')
      | EVar x sp => named p GetVariable x sp c = Ok (is, c')
      | _ => False
      end -> exists vs', grown c vs c' vs' /\ opt_map (load_instr vs' (snd c')) is = Some (postfix e)) -> instr_ok e.
  Proof.
    intros Hc Hi c vs is c' G H. rewrite instr_of_const in H. destruct (compile_constant p e c) as [[k c1]| | |] eqn:E; cbn [obind] in H; try discriminate.
    destruct (Hc _ _ _ _ G E) as (v1 & G1 & E1). destruct k as [k|].
    - destruct E1 as (v & Cv & Lk & Sp). destruct (push_constant_good _ _ _ _ _ _ _ _ (proj2 (proj2 G1)) Lk H) as (v2 & G2 & E2).
      exists v2. split; [eapply grown_trans; eauto|]. rewrite E2. f_equal. destruct e; try exact Sp. destruct Sp as [-> ->]. reflexivity.
    - assert (exists vs', grown c1 v1 c' vs' /\ opt_map (load_instr vs' (snd c')) is = Some (postfix e)) as (v2 & G2 & E2).
      { eapply Hi; [apply G1|exact E1|]. destruct e; try exact H; discriminate H. }
      exists v2. split; [eapply grown_trans; eauto|exact E2].
  Qed.

  Lemma compile_good : (forall e, const_ok e /\ instr_ok e) /\ (forall s, stmt_ok s).
  Proof.
    apply tree_ind.
    - (* code *)
      intros content src sp HF. assert (const_ok (ECode content src sp)) as HC.
      { intros c vs k c' G H. rewrite const_code in H.
        destruct (each (comp_stmt p) content c) as [[iss c1]| | |] eqn:E; cbn [obind] in H; try discriminate.
        destruct (block_pointer p content sp) as [q| | |] eqn:Eq; cbn [obind] in H; try discriminate. injection H as <- <-.
        destruct (each_ok (comp_stmt p) postfix_stmt content HF _ _ _ _ G E) as (v1 & G1 & E1). exists v1. split; [exact G1|].
        eexists. split; [reflexivity|]. cbn [CompileSpec.load_constant]. rewrite (block_good _ _ _ v1 Eq), E1. auto. }
      split; [exact HC|]. apply instr_from_const; [exact HC|]. intros. contradiction.
    - intros s sp w. assert (const_ok (EString s sp w)) as HC. { intros c vs k c' G H. injection H as <- <-. exists vs. split; [now apply grown_refl|]. eexists. cbn. auto. }
      split; [exact HC|]. apply instr_from_const; [exact HC|]. intros. contradiction.
    - intros s sp. assert (const_ok (ENumber s sp)) as HC. { intros c vs k c' G H. injection H as <- <-. exists vs. split; [now apply grown_refl|]. eexists. cbn. auto. }
      split; [exact HC|]. apply instr_from_const; [exact HC|]. intros. contradiction.
    - intros s sp. assert (const_ok (EBool s sp)) as HC. { intros c vs k c' G H. injection H as <- <-. exists vs. split; [now apply grown_refl|]. eexists. cbn. auto. }
      split; [exact HC|]. apply instr_from_const; [exact HC|]. intros. contradiction.
    - (* array *)
      intros l sp HF. assert (const_ok (EArray l sp)) as HC.
      { intros c vs k c' G H. rewrite const_array in H.
        destruct (each_opt _ l c) as [[ks c1]| | |] eqn:E; cbn [obind] in H; try discriminate. injection H as <- <-.
        destruct (each_opt_ok l ltac:(eapply Forall_impl; [|exact HF]; intros ? []; auto) _ _ _ _ G E) as (v1 & G1 & E1). exists v1. split; [exact G1|].
        destruct ks as [ks|]; cbn [option_map].
        - destruct E1 as (ws & Cv & Lk & Len & Sp). exists (VArray ws). cbn [CompileSpec.constant_value CompileSpec.load_constant]. rewrite Cv, Lk.
          repeat split. cbn [spread CompileSpec.postfix]. fold spreads. rewrite Len. f_equal. exact Sp.
        - cbn [CompileSpec.constant_value]. now rewrite E1. }
      split; [exact HC|]. apply instr_from_const; [exact HC|]. intros c vs is c' G _ H.
      destruct (N.ltb_spec (N.of_nat (length l)) (2 ^ 16)); [|discriminate].
      destruct (each (compile_instructions p) l c) as [[iss c1]| | |] eqn:E; cbn [obind] in H; try discriminate.
      destruct (location_to_source p sp) as [si| | |]; cbn [obind] in H; try discriminate. injection H as <- <-.
      destruct (each_ok (compile_instructions p) postfix l ltac:(eapply Forall_impl; [|exact HF]; intros ? []; auto) _ _ _ _ G E) as (v1 & G1 & E1).
      exists v1. split; [exact G1|]. cbn [CompileSpec.postfix]. apply opt_map_app; [exact E1|reflexivity].
    - (* shared array *)
      intros l sp HF. assert (const_ok (EConsumable l sp)) as HC.
      { intros c vs k c' G H. rewrite const_consumable in H.
        destruct (each_opt _ l c) as [[ks c1]| | |] eqn:E; cbn [obind] in H; try discriminate. injection H as <- <-.
        destruct (each_opt_ok l ltac:(eapply Forall_impl; [|exact HF]; intros ? []; auto) _ _ _ _ G E) as (v1 & G1 & E1). exists v1. split; [exact G1|].
        destruct ks as [ks|]; cbn [option_map].
        - destruct E1 as (ws & Cv & Lk & Len & Sp). exists (VArray ws). cbn [CompileSpec.constant_value CompileSpec.load_constant CompileSpec.postfix]. rewrite Cv, Lk.
          repeat split. change (match opt_map constant_value l with Some vs => [Lit (VArray vs)] | None => flat_map postfix l ++ [Make (N.of_nat (length l))] end = [Lit (VArray ws)]). now rewrite Cv.
        - cbn [CompileSpec.constant_value]. now rewrite E1. }
      split; [exact HC|]. apply instr_from_const; [exact HC|]. intros. contradiction.
    - (* nular *)
      intros x sp. assert (const_ok (ENular x sp)) as HC.
      { intros c vs k c' G H. rewrite const_nular in H. unfold is_constant_command in H. exists vs.
        cbn [CompileSpec.constant_value CompileSpec.postfix]. destruct (is_in nular_constants x) eqn:Ei.
        - unfold normalize in H. destruct (is_valid_command _); cbn [obind] in H; [|discriminate]. injection H as <- <-. split; [now apply grown_refl|].
          eexists. split; [reflexivity|]. cbn [CompileSpec.load_constant spread]. split; [|reflexivity]. f_equal. f_equal. unfold to_ascii_lower. rewrite map_map. apply map_ext.
          intro a. unfold lower_char. destruct (N.leb_spec 65 a); cbn [andb]; [destruct (N.leb_spec a 90); cbn [andb]|].
          + destruct (N.leb_spec 65 (a + 32)), (N.leb_spec (a + 32) 90); cbn [andb]; lia.
          + destruct (N.leb_spec 65 a), (N.leb_spec a 90); cbn [andb]; lia.
          + destruct (N.leb_spec 65 a); cbn [andb]; lia.
        - injection H as <- <-. split; [now apply grown_refl|]. reflexivity. }
      split; [exact HC|]. apply instr_from_const; [exact HC|]. intros c vs is c' G Cn H. cbn [CompileSpec.constant_value CompileSpec.postfix] in *.
      destruct (is_in nular_constants x); [discriminate|]. exists vs. eapply named_good; eauto. reflexivity.
    - (* unary *)
      intros u e sp [_ He]. assert (const_ok (EUnary u e sp)) as HC. { intros c vs k c' G H. unfold compile_constant in H. cbn [comp fst] in H. assert (k = None /\ c' = c) as [-> ->] by (split; congruence). exists vs. split; [now apply grown_refl|reflexivity]. }
      split; [exact HC|]. apply instr_from_const; [exact HC|]. intros c vs is c' G _ H.
      destruct (compile_instructions p e c) as [[js c1]| | |] eqn:E; cbn [obind] in H; try discriminate.
      destruct (named p CallUnary (unary_str u) sp c1) as [[ks c2]| | |] eqn:En; cbn [obind] in H; try discriminate. injection H as <- <-.
      destruct (He _ _ _ _ G E) as (v1 & G1 & E1).
      destruct (named_good CallUnary Unary _ _ _ _ _ _ ltac:(reflexivity) (proj2 (proj2 G1)) En) as (G2 & E2).
      exists v1. split; [eapply grown_trans; eauto|]. cbn [CompileSpec.postfix]. apply opt_map_app; [|exact E2]. eapply load_instrs_mono; [apply G2|apply G2|exact E1].
    - (* binary *)
      intros b e1 e2 sp [_ H1] [_ H2]. assert (const_ok (EBinary b e1 e2 sp)) as HC. { intros c vs k c' G H. unfold compile_constant in H. cbn [comp fst] in H. assert (k = None /\ c' = c) as [-> ->] by (split; congruence). exists vs. split; [now apply grown_refl|reflexivity]. }
      split; [exact HC|]. apply instr_from_const; [exact HC|]. intros c vs is c' G _ H.
      destruct (compile_instructions p e1 c) as [[js c1]| | |] eqn:E1; cbn [obind] in H; try discriminate.
      destruct (compile_instructions p e2 c1) as [[ks c2]| | |] eqn:E2; cbn [obind] in H; try discriminate.
      destruct (named p CallBinary (binary_str b) sp c2) as [[ls c3]| | |] eqn:En; cbn [obind] in H; try discriminate. injection H as <- <-.
      destruct (H1 _ _ _ _ G E1) as (v1 & G1 & L1). destruct (H2 _ _ _ _ (proj2 (proj2 G1)) E2) as (v2 & G2 & L2).
      destruct (named_good CallBinary Binary _ _ _ _ _ _ ltac:(reflexivity) (proj2 (proj2 G2)) En) as (G3 & L3).
      exists v2. split; [eauto using grown_trans|]. cbn [CompileSpec.postfix]. pose proof (grown_trans _ _ _ _ _ _ _ _ G2 G3) as G23.
      apply opt_map_app; [eapply load_instrs_mono; [apply G23|apply G23|exact L1]|].
      apply opt_map_app; [eapply load_instrs_mono; [apply G3|apply G3|exact L2]|exact L3].
    - (* variable *)
      intros x sp. assert (const_ok (EVar x sp)) as HC. { intros c vs k c' G H. unfold compile_constant in H. cbn [comp fst] in H. assert (k = None /\ c' = c) as [-> ->] by (split; congruence). exists vs. split; [now apply grown_refl|reflexivity]. }
      split; [exact HC|]. apply instr_from_const; [exact HC|]. intros c vs is c' G _ H. exists vs. eapply named_good; eauto. reflexivity.
    - intros x e sp [_ He] c vs is c' G H. rewrite stmt_global in H.
      destruct (compile_instructions p e c) as [[js c1]| | |] eqn:E; cbn [obind] in H; try discriminate.
      destruct (named p AssignTo x sp c1) as [[ks c2]| | |] eqn:En; cbn [obind] in H; try discriminate. injection H as <- <-.
      destruct (He _ _ _ _ G E) as (v1 & G1 & E1).
      destruct (named_good AssignTo SetGlobal _ _ _ _ _ _ ltac:(reflexivity) (proj2 (proj2 G1)) En) as (G2 & E2).
      exists v1. split; [eapply grown_trans; eauto|]. refine (opt_map_app (load_instr v1 (snd c2)) [EndStatement] (js ++ ks) [Next] (postfix e ++ [SetGlobal (to_ascii_lower x) (place_of p virtual (fst sp))]) eq_refl _). apply opt_map_app; [|exact E2]. eapply load_instrs_mono; [apply G2|apply G2|exact E1].
    - intros x e sp [_ He] c vs is c' G H. rewrite stmt_local in H.
      destruct (compile_instructions p e c) as [[js c1]| | |] eqn:E; cbn [obind] in H; try discriminate.
      destruct (named p AssignToLocal x sp c1) as [[ks c2]| | |] eqn:En; cbn [obind] in H; try discriminate. injection H as <- <-.
      destruct (He _ _ _ _ G E) as (v1 & G1 & E1).
      destruct (named_good AssignToLocal SetLocal _ _ _ _ _ _ ltac:(reflexivity) (proj2 (proj2 G1)) En) as (G2 & E2).
      exists v1. split; [eapply grown_trans; eauto|]. refine (opt_map_app (load_instr v1 (snd c2)) [EndStatement] (js ++ ks) [Next] (postfix e ++ [SetLocal (to_ascii_lower x) (place_of p virtual (fst sp))]) eq_refl _). apply opt_map_app; [|exact E2]. eapply load_instrs_mono; [apply G2|apply G2|exact E1].
    - intros e sp [_ He] c vs is c' G H. rewrite stmt_plain in H.
      destruct (compile_instructions p e c) as [[js c1]| | |] eqn:E; cbn [obind] in H; try discriminate. injection H as <- <-.
      destruct (He _ _ _ _ G E) as (v1 & G1 & E1). exists v1. split; [exact G1|]. exact (opt_map_app (load_instr v1 (snd c1)) [EndStatement] js [Next] (postfix e) eq_refl E1).
  Qed.
End Compile.

(** ** Whole scripts *)
Section Whole.
  Context (p : processed) (virtual : text -> text).
  Lemma compile_inv s c : compile p virtual s = Ok c -> exists is c1 i c2,
    each (comp_stmt p) (content s) ([], []) = Ok (is, c1) /\ add_constant (KString (source s)) c1 = Ok (i, c2) /\
    c = Compiled (N.of_nat (length (fst c2)) mod 2 ^ 16) (fst c2 ++ [KCode (concat is) (PConstant i)]) (snd c2) (map (fun f => virtual (fst f)) (sources p)).
  Proof.
    unfold compile. destruct (each _ _ _) as [[is c1]| | |] eqn:E; cbn [obind]; try discriminate.
    destruct (add_constant _ c1) as [[i c2]| | |] eqn:Ea; cbn [obind]; try discriminate. intro Q. injection Q as <-. exists is, c1, i, c2. auto.
  Qed.
  Lemma add_constant_string s c i c' : add_constant (KString s) c = Ok (i, c') -> nth_n (fst c') i = Some (KString s).
  Proof.
    unfold add_constant, add_or_get. destruct (index_of constant_eqb (fst c) (KString s)) as [j|] eqn:E; cbn [obind].
    - destruct (N.ltb_spec j (2 ^ 16)); [|discriminate]. intro Q. injection Q as <- <-. destruct (index_of_some _ _ _ _ E) as (y & a & b & Ec & Ey & ->).
      cbn [fst]. rewrite Ec, nth_n_app. destruct y; cbn in Ey; try discriminate. apply same_text_spec in Ey. now subst.
    - destruct (N.ltb_spec (N.of_nat (length (fst c))) (2 ^ 16)); [|discriminate]. intro Q. injection Q as <- <-. apply nth_n_app.
  Qed.
  Lemma compile_loads s c : byte_len (o_text p) < 2 ^ 32 -> source s = o_text p -> compile p virtual s = Ok c -> exists vs,
    load_pool (o_text p) (file_names c) (names c) [] (constants c) = Some (vs ++ [VCode (o_text p) (meaning p virtual (content s))]) /\
    exists ks is i, constants c = ks ++ [KCode is (PConstant i)] /\ length ks = length vs /\ entry_point c = N.of_nat (length ks) mod 2 ^ 16 /\ nth_n ks i = Some (KString (o_text p)).
  Proof.
    intros Sm Hs H. destruct (compile_inv _ _ H) as (is & c1 & i & c2 & E & Ea & ->). cbn [file_names names constants entry_point].
    destruct (compile_good p virtual Sm) as [_ Hst].
    destruct (each_ok p virtual (comp_stmt p) (postfix_stmt p virtual) (content s)) with (c := (@nil constant, @nil text)) (vs := @nil value) (iss := is) (c' := c1) as (v1 & G1 & E1);
      [apply Forall_forall; intros x _; apply Hst|reflexivity|exact E|].
    destruct (add_constant_good _ _ (KString (source s)) c1 v1 (VString (source s)) i c2 (proj2 (proj2 G1)) eq_refl Ea) as (v2 & G2 & N2).
    exists v2. pose proof (proj2 (proj2 G2)) as G. split.
    - rewrite load_pool_app. unfold good in G. rewrite G. cbn [load_pool load_constant load_pointer]. rewrite N2.
      rewrite (load_instrs_mono _ v1 v2 (snd c1) (snd c2) _ _ (proj1 (proj2 G2)) (proj1 G2) E1), Hs. reflexivity.
    - exists (fst c2), (concat is), i. split; [reflexivity|]. split; [|split; [reflexivity|rewrite <- Hs; eapply add_constant_string; exact Ea]].
      apply load_pool_begins in G. destruct G as [_ L]. cbn in L. lia.
  Qed.
End Whole.

(** ** Running the postfix form is evaluating the tree *)
Section Run.
  Context (E : engine) (p : processed) (virtual : text -> text).
  Notation postfix := (postfix p virtual).
  Notation eval := (eval E p virtual).
  Definition runs (e : expr) : Prop := forall k st w, run E (postfix e ++ k) st w = match eval e w with Some (v, w) => run E k (v :: st) w | None => None end.

  Lemma eval_list_length l : forall w vs w', eval_list E eval l w = Some (vs, w') -> length vs = length l.
  Proof.
    induction l as [|e l IH]; intros w vs w'; cbn [eval_list]; [intro Q; injection Q as <- <-; reflexivity|].
    destruct (eval e w) as [[v w1]|]; [|discriminate]. destruct (eval_list E eval l w1) as [[ws w2]|] eqn:El; [|discriminate].
    intro Q. injection Q as <- <-. cbn [length]. f_equal. eauto.
  Qed.
  Lemma run_list l : Forall runs l -> forall k st w,
    run E (flat_map postfix l ++ k) st w = match eval_list E eval l w with Some (vs, w) => run E k (rev vs ++ st) w | None => None end.
  Proof.
    induction 1 as [|e l He _ IH]; intros k st w; cbn [flat_map eval_list]; [reflexivity|].
    rewrite <- app_assoc, He. destruct (eval e w) as [[v w1]|]; [|reflexivity]. rewrite IH.
    destruct (eval_list E eval l w1) as [[vs w2]|]; [|reflexivity]. cbn [rev]. now rewrite <- app_assoc.
  Qed.
  Lemma run_make l : Forall runs l -> forall k st w,
    run E ((flat_map postfix l ++ [Make (N.of_nat (length l))]) ++ k) st w =
      match match eval_list E eval l w with Some (vs, w) => array E vs w | None => None end with Some (v, w) => run E k (v :: st) w | None => None end.
  Proof.
    intros HF k st w. rewrite <- app_assoc, run_list by exact HF. destruct (eval_list E eval l w) as [[vs w1]|] eqn:El; [|reflexivity].
    apply eval_list_length in El. cbn [app run step]. rewrite Nnat.Nat2N.id, app_length, rev_length, <- El.
    replace (N.of_nat (length vs + length st) <? N.of_nat (length vs)) with false by (symmetry; apply N.ltb_ge; lia).
    replace (length vs) with (length (rev vs)) by apply rev_length.
    rewrite firstn_app, firstn_all, Nat.sub_diag, skipn_app, skipn_all, Nat.sub_diag. cbn [firstn skipn app]. rewrite app_nil_r, rev_involutive.
    destruct (array E vs w1) as [[v w2]|]; reflexivity.
  Qed.
  Lemma run_postfix e : runs e.
  Proof.
    revert e. apply (expr_ind' runs (fun s => runs (stmt_expr s))); unfold runs; try (intros; reflexivity).
    - (* array *) intros l sp HF k st w. exact (run_make l HF k st w).
    - (* shared *) intros l sp HF k st w.
      change (postfix (EConsumable l sp)) with (match opt_map (constant_value p virtual) l with Some vs => [Lit (VArray vs)] | None => flat_map postfix l ++ [Make (N.of_nat (length l))] end).
      change (eval (EConsumable l sp) w) with (match opt_map (constant_value p virtual) l with
        | Some vs => Some (literal E (VArray vs), w)
        | None => match eval_list E eval l w with Some (vs, w) => array E vs w | None => None end
        end).
      destruct (opt_map _ l); [reflexivity|]. now apply run_make.
    - (* nular *) intros x sp k st w. cbn [CompileSpec.postfix CompileSpec.eval]. destruct (is_in nular_constants x); [reflexivity|]. cbn [app run step].
      unfold push_result. destruct (nular E _ _ w) as [[v w1]|]; reflexivity.
    - (* unary *) intros u e sp He k st w. cbn [CompileSpec.postfix CompileSpec.eval]. rewrite <- app_assoc. rewrite He. destruct (eval e w) as [[v w1]|]; [|reflexivity].
      cbn [app run step]. unfold push_result. destruct (unary_cmd E _ _ v w1) as [[v' w']|]; reflexivity.
    - (* binary *) intros b e1 e2 sp H1 H2 k st w. cbn [CompileSpec.postfix CompileSpec.eval]. rewrite <- !app_assoc. rewrite H1. destruct (eval e1 w) as [[v1 w1]|]; [|reflexivity].
      rewrite H2. destruct (eval e2 w1) as [[v2 w2]|]; [|reflexivity]. cbn [app run step]. unfold push_result. destruct (binary_cmd E _ _ v1 v2 w2) as [[v' w']|]; reflexivity.
    - (* variable *) intros x sp k st w. cbn [CompileSpec.postfix CompileSpec.eval app run step]. unfold push_result. destruct (get E _ _ w) as [[v w1]|]; reflexivity.
    - intros x e sp He k st w. apply He.
    - intros x e sp He k st w. apply He.
    - intros e sp He k st w. apply He.
  Qed.
  Lemma run_stmt s k st w : run E (postfix_stmt p virtual s ++ k) st w = match exec_stmt E p virtual s st w with Some (st, w) => run E k st w | None => None end.
  Proof.
    unfold exec_stmt. destruct s as [x e sp|x e sp|e sp]; cbn [stmt_expr].
    - change (postfix_stmt p virtual (SGlobal x e sp)) with (Next :: postfix e ++ [SetGlobal (to_ascii_lower x) (place_of p virtual (fst sp))]).
      cbn [app run step]. destruct (boundary E st w) as [[st1 w1]|]; [|reflexivity]. rewrite <- app_assoc, run_postfix.
      destruct (eval e w1) as [[v w2]|]; [|reflexivity]. cbn [app run step]. destruct (set_global E _ _ v w2); reflexivity.
    - change (postfix_stmt p virtual (SLocal x e sp)) with (Next :: postfix e ++ [SetLocal (to_ascii_lower x) (place_of p virtual (fst sp))]).
      cbn [app run step]. destruct (boundary E st w) as [[st1 w1]|]; [|reflexivity]. rewrite <- app_assoc, run_postfix.
      destruct (eval e w1) as [[v w2]|]; [|reflexivity]. cbn [app run step]. destruct (set_local E _ _ v w2); reflexivity.
    - change (postfix_stmt p virtual (SExpr e sp)) with (Next :: postfix e).
      cbn [app run step]. destruct (boundary E st w) as [[st1 w1]|]; [|reflexivity]. rewrite run_postfix. destruct (eval e w1) as [[v w2]|]; reflexivity.
  Qed.
  Lemma run_meaning l : forall st w, run E (meaning p virtual l) st w = exec E p virtual l st w.
  Proof.
    induction l as [|s l IH]; intros st w; [reflexivity|]. unfold meaning in *. cbn [flat_map exec]. rewrite run_stmt.
    destruct (exec_stmt E p virtual s st w) as [[st1 w1]|]; [apply IH|reflexivity].
  Qed.
End Run.
