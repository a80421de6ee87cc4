(** Proofs about the analysis of configs, part 2: what each lint finds. *)
From Coq Require Import String.
From Verif Require Import Base.Tactics Base.Bytes Base.Ascii Base.Text Base.Sort Config.RapModel Config.RapTree Config.RapProofs Config.AnalyzeSpec Config.AnalyzeModel Config.AnalyzeWalk.
Local Open Scope N_scope.
Local Open Scope list_scope.

(** ** Groups *)
Section Group.
  Context {K A : Type} (key : K -> bytes) (dec : forall a b : K, {a = b} + {a <> b}).
  Definition at_key (k : K) (es : list (K * A)) : list A := map snd (filter (fun e => if dec (fst e) k then true else false) es).
  Definition group (es : list (K * A)) : list (bytes * list A) := fold_left (fun m e => push (key (fst e)) (snd e) m) es [].

  Lemma at_key_app : forall k es es', at_key k (es ++ es') = at_key k es ++ at_key k es'.
  Proof. intros. unfold at_key. now rewrite filter_app, map_app. Qed.
  Lemma at_key_one : forall k k' x, at_key k [(k', x)] = if dec k' k then [x] else [].
  Proof. intros. unfold at_key. cbn. now destruct (dec k' k). Qed.
  Lemma at_key_nil : forall k es, ~ In k (map fst es) -> at_key k es = [].
  Proof.
    intros k es. induction es as [|e es IH]; intros Hn; [reflexivity|]. unfold at_key in *. cbn in *. destruct (dec (fst e) k) as [E|_]; [exfalso; auto|]. auto.
  Qed.
  Lemma at_key_length : forall k es, In k (map fst es) -> at_key k es <> [].
  Proof.
    intros k es. induction es as [|e es IH]; intros Hn; [destruct Hn|]. unfold at_key in *. cbn in *. destruct (dec (fst e) k) as [E|E]; [discriminate|].
    destruct Hn; [congruence|auto].
  Qed.

  Lemma push_new : forall (f : K -> list A) x k ks, (forall q, In q ks -> key q <> key k) ->
    push (key k) x (map (fun q => (key q, f q)) ks) = map (fun q => (key q, f q)) ks ++ [(key k, [x])].
  Proof.
    intros f x k ks. induction ks as [|q ks IH]; intros H; [reflexivity|]. cbn [map push app].
    destruct (eqb_bytes (key k) (key q)) eqn:E.
    - apply eqb_bytes_spec in E. exfalso. apply (H q); [now left|auto].
    - f_equal. apply IH. intros; apply H; now right.
  Qed.
  Lemma push_old : forall (f : K -> list A) x k ks, NoDup ks -> In k ks -> (forall q, In q ks -> key q = key k -> q = k) ->
    push (key k) x (map (fun q => (key q, f q)) ks) = map (fun q => (key q, f q ++ if dec k q then [x] else [])) ks.
  Proof.
    intros f x k ks. induction ks as [|q ks IH]; intros Hnd Hk H; [destruct Hk|]. cbn [map push]. inversion Hnd as [|? ? Hq Hnd']; subst.
    destruct (eqb_bytes (key k) (key q)) eqn:E.
    - apply eqb_bytes_spec in E. assert (q = k) as -> by (apply H; [now left|auto]). destruct (dec k k) as [_|n]; [|now destruct n].
      f_equal. apply map_ext_in. intros a Ha. destruct (dec k a) as [<-|_]; [contradiction|]. now rewrite app_nil_r.
    - destruct (dec k q) as [<-|Hn].
      + exfalso. assert (Q : eqb_bytes (key k) (key k) = true) by now apply eqb_bytes_spec. congruence.
      + rewrite app_nil_r. f_equal. apply IH; auto. { destruct Hk; [congruence|auto]. } intros; apply H; [now right|auto].
  Qed.

  Context (good : K -> Prop) (inj : forall a b, good a -> good b -> key a = key b -> a = b).
  Theorem group_eq : forall es, (forall e, In e es -> good (fst e)) ->
    exists ks, NoDup ks /\ (forall k, In k ks <-> In k (map fst es)) /\ group es = map (fun k => (key k, at_key k es)) ks.
  Proof using inj.
    intros es. induction es as [|[k x] es IH] using rev_ind; intros Hg.
    - exists []. split; [constructor|]. split; [reflexivity|reflexivity].
    - destruct IH as (ks & Hnd & Hin & Heq). { intros e He. apply Hg, in_or_app. now left. }
      assert (Gk : good k) by (apply (Hg (k, x)), in_or_app; right; now left).
      assert (Gks : forall q, In q ks -> good q).
      { intros q Hq. apply Hin, in_map_iff in Hq as (e & <- & He). apply Hg, in_or_app. now left. }
      unfold group in *. rewrite fold_left_app. cbn [fold_left fst snd]. rewrite Heq.
      destruct (in_dec dec k ks) as [Hk|Hk].
      + exists ks. split; [exact Hnd|]. split.
        * intros q. rewrite map_app, in_app_iff. cbn. rewrite Hin. split; [auto|]. intros [?|[<-|[]]]; [auto|]. now apply Hin.
        * rewrite (push_old (fun q => at_key q es)); auto. apply map_ext. intros q. now rewrite at_key_app, at_key_one.
      + exists (ks ++ [k]). split; [|split].
        * apply (Permutation_NoDup (Permutation_cons_append ks k)). constructor; auto.
        * intros q. rewrite map_app, !in_app_iff. cbn. now rewrite Hin.
        * rewrite (push_new (fun q => at_key q es)).
          -- rewrite map_app. cbn [map]. f_equal.
             ++ apply map_ext_in. intros q Hq. rewrite at_key_app, at_key_one. destruct (dec k q) as [<-|_]; [contradiction|]. now rewrite app_nil_r.
             ++ rewrite at_key_app, at_key_one, at_key_nil. { destruct (dec k k) as [_|n]; [reflexivity|now destruct n]. } rewrite <- Hin. exact Hk.
          -- intros q Hq E. apply inj in E; auto. congruence.
  Qed.
End Group.

(** ** Paths with dots *)
Definition dotted (path : list bytes) : bytes := flat_map (fun s => 46 :: s) path.
Definition plain (s : bytes) : Prop := ~ In 46 s.
Lemma cut_dot : forall a b x y, plain a -> plain b -> (x = [] \/ exists x', x = 46 :: x') -> (y = [] \/ exists y', y = 46 :: y') ->
  a ++ x = b ++ y -> a = b /\ x = y.
Proof.
  intros a. induction a as [|c a IH]; intros b x y Ha Hb Hx Hy E.
  - destruct b as [|d b]; [auto|]. cbn in E. destruct Hx as [->|(x' & ->)]; [discriminate|]. injection E as <- _. exfalso. apply Hb. now left.
  - destruct b as [|d b]; cbn in E.
    + destruct Hy as [->|(y' & ->)]; [discriminate|]. injection E as -> _. exfalso. apply Ha. now left.
    + injection E as <- E. destruct (IH b x y) as [-> ->]; auto; intros Hi; [apply Ha|apply Hb]; now right.
Qed.
Lemma dotted_inj : forall p q, Forall plain p -> Forall plain q -> dotted p = dotted q -> p = q.
Proof.
  assert (D : forall p, dotted p = [] \/ exists r, dotted p = 46 :: r) by (intros [|s p]; [now left|right; eexists; reflexivity]).
  intros p. induction p as [|s p IH]; intros [|t q] Hp Hq E; [reflexivity|discriminate|discriminate|].
  cbn [dotted flat_map] in E. injection E as E. inversion Hp; inversion Hq; subst. fold (dotted p) in E. fold (dotted q) in E.
  apply cut_dot in E as [-> E]; auto. f_equal; auto.
Qed.
Lemma dotted_app : forall p s, dotted (p ++ [s]) = dotted p ++ 46 :: s.
Proof. intros. unfold dotted. rewrite flat_map_app. cbn. now rewrite app_nil_r. Qed.

Section Lints.
  Context (low : bytes -> bytes).

  (** ** c02 *)
  Notation into := (fun m e => push (dotted (fst e)) (snd e) m).
  Definition places_prop (scope : list bytes) (p : property) : list (list bytes * (bool * bytes)) :=
    match p with
    | PClass c => places_class low scope c
    | Entry m _ _ | MissingSemicolon m => [(scope ++ [low m], (false, m))]
    | Delete _ => []
    end.
  Lemma fold_places : forall scope ps seen,
    Forall (Pprop (fun c => forall scope seen, c02_class low (dotted scope) c seen = fold_left into (places_class low scope c) seen)) ps ->
    c02_props low (dotted scope) ps seen = fold_left into (flat_map (places_prop scope) ps) seen.
  Proof.
    intros scope ps. unfold c02_props. induction ps as [|p ps IH]; intros seen F; [reflexivity|]. inversion F as [|? ? Hp Hps]; subst.
    cbn [fold_left flat_map]. rewrite fold_left_app, IH by auto. f_equal.
    destruct p as [n v e|c|n|n]; cbn [places_prop fold_left fst snd]; try reflexivity; try exact (Hp scope seen); unfold scoped; now rewrite dotted_app.
  Qed.
  Lemma c02_class_eq : forall c scope seen, c02_class low (dotted scope) c seen = fold_left into (places_class low scope c) seen.
  Proof.
    induction c as [ps IH|n parent ps mb IH|n] using class_ind'; intros scope seen; [reflexivity| |reflexivity].
    cbn [c02_class places_class]. rewrite fold_left_app. cbn [fold_left fst snd].
    assert (E : scoped low (dotted scope) n = dotted (scope ++ [low n])) by (unfold scoped; now rewrite dotted_app).
    rewrite E. f_equal. pose proof (fold_places (scope ++ [low n]) ps seen IH) as G. unfold c02_props in G. rewrite G. f_equal.
    apply flat_map_ext_in. intros [m v e|c|m|m] _; cbn [places_prop]; rewrite <- ?app_assoc; reflexivity.
  Qed.
  Lemma c02_props_eq : forall ps, c02_props low [] ps [] = group dotted (places low ps).
  Proof.
    intros ps. change (@nil N) with (dotted []) at 1. rewrite fold_places.
    - unfold group. f_equal. 
    - apply Forall_forall. intros [n v e|c|n|n] _; cbn; auto. apply c02_class_eq.
  Qed.
  Lemma places_plain : forall ps, dotless low ps -> forall e, In e (places low ps) -> Forall plain (fst e).
  Proof.
    assert (Q : forall scope ps, Forall (Pprop (fun c => forall scope, Forall plain scope -> dotless low [PClass c] -> forall e, In e (places_class low scope c) -> Forall plain (fst e))) ps ->
      Forall plain scope -> dotless low ps -> forall e, In e (flat_map (places_prop scope) ps) -> Forall plain (fst e)).
    { intros scope ps F Hs Hd e He. apply in_flat_map in He as (p & Hp & He). rewrite Forall_forall in F. specialize (F p Hp).
      assert (W : within ps p) by (exists ps; split; [constructor|auto]).
      destruct p as [n v x|c|n|n]; cbn [places_prop In fst] in He.
      - destruct He as [<-|[]]. apply Forall_app. split; [exact Hs|]. constructor; [|constructor]. exact (Hd _ W).
      - apply (F scope Hs); [|exact He]. intros q (b & Hb & Hq). apply Hd. inversion Hb as [|? ps' ? Hi Hb'|? n' pa' ps' mb' ? Hi Hb']; subst; try (destruct Hi as [[= ->]|[]]).
        + destruct Hq as [<-|[]]. exact W.
        + exists b. split; [eapply B_root; eauto|exact Hq].
        + exists b. split; [eapply B_local; eauto|exact Hq].
      - destruct He.
      - destruct He as [<-|[]]. apply Forall_app. split; [exact Hs|]. constructor; [|constructor]. exact (Hd _ W). }
    assert (C : forall c scope, Forall plain scope -> dotless low [PClass c] -> forall e, In e (places_class low scope c) -> Forall plain (fst e)).
    { induction c as [ps IH|n parent ps mb IH|n] using class_ind'; intros scope Hs Hd e He; [destruct He| |destruct He].
      assert (Hs' : Forall plain (scope ++ [low n])).
      { apply Forall_app. split; [exact Hs|]. constructor; [|constructor]. apply (Hd (PClass (Local n parent ps mb))). eexists. split; [constructor|now left]. }
      cbn [places_class] in He. apply in_app_or in He as [He|[<-|[]]]; [|exact Hs'].
      apply (Q (scope ++ [low n]) ps IH Hs').
      - intros q (b & Hb & Hq). apply Hd. exists b. split; [eapply B_local; [now left|exact Hb]|exact Hq].
      - erewrite flat_map_ext_in; [exact He|]. intros [m v e'|c|m|m] _; cbn [places_prop]; rewrite <- ?app_assoc; reflexivity. }
    intros ps Hd e He. apply (Q [] ps); auto. apply Forall_forall. intros [n v x|c|n|n] _; cbn; auto. intros. eapply C; eauto.
  Qed.

  Theorem c02_exact : forall ps, dotless low ps -> exists paths, NoDup paths /\ (forall path, In path paths <-> clash low ps path) /\
    c02 low ps = map (fun path => Some (DuplicateProperty (names_at low ps path))) paths.
  Proof.
    intros ps Hd. unfold c02. rewrite c02_props_eq.
    destruct (group_eq dotted path_dec (Forall plain) dotted_inj (places low ps) (places_plain ps Hd)) as (ks & Hnd & Hin & ->).
    set (test := fun k => (1 <? length (at_key path_dec k (places low ps)))%nat && negb (forallb fst (at_key path_dec k (places low ps)))).
    exists (filter test ks). split; [now apply NoDup_filter|]. split.
    - intros path. rewrite filter_In, Hin. unfold test, clash, names_at. rewrite andb_true_iff, negb_true_iff, Nat.ltb_lt.
      set (f := filter (fun e : list bytes * (bool * bytes) => if path_dec (fst e) path then true else false) (places low ps)).
      assert (L : length (at_key path_dec path (places low ps)) = length f) by (unfold at_key; now rewrite map_length).
      assert (B : forallb fst (at_key path_dec path (places low ps)) = false <-> exists n, In (path, (false, n)) (places low ps)).
      { rewrite <- not_true_iff_false, forallb_forall. split.
        - intros Hn. destruct (Exists_dec (fun e : list bytes * (bool * bytes) => fst e = path /\ fst (snd e) = false) (places low ps)) as [X|X].
          { intros [a [[|] c]]; cbn [fst snd]; [right; intros [_ E]; discriminate E|]. destruct (path_dec a path); [left; auto|right; intros [? _]; auto]. }
          + apply Exists_exists in X as ([a [b c]] & Ha & E1 & E2). cbn [fst snd] in *. subst. eauto.
          + exfalso. apply Hn. intros [b c] Hb. unfold at_key in Hb. apply in_map_iff in Hb as ([a bc] & E & Hb). apply filter_In in Hb as [Hb Hc]. cbn [fst snd] in *. subst bc.
            destruct (path_dec a path) as [->|]; [|discriminate]. destruct b; [reflexivity|]. exfalso. apply X, Exists_exists. eexists. split; [exact Hb|]. auto.
        - intros (n & Hn) Hall. assert (X : In (false, n) (at_key path_dec path (places low ps))).
          { unfold at_key. apply in_map_iff. exists (path, (false, n)). split; [reflexivity|]. apply filter_In. split; [exact Hn|]. cbn [fst snd]. now destruct (path_dec path path). }
          apply Hall in X. discriminate. }
      rewrite B, L, map_length. split.
      + intros (_ & H1 & H2). split; [lia|exact H2].
      + intros (H1 & H2). split; [|split; [lia|exact H2]]. destruct H2 as (n & Hn). apply in_map_iff. exists (path, (false, n)). auto.
    - clear Hnd Hin. induction ks as [|k ks IH]; [reflexivity|]. cbn [map flat_map filter snd]. fold (test k). rewrite IH.
      destruct (test k); cbn [map app]; [|reflexivity]. do 3 f_equal. unfold at_key, names_at. rewrite map_map. reflexivity.
  Qed.

  (** ** c03 *)
  Definition class_entries (ps : list property) : list (bytes * bytes) :=
    flat_map (fun p => match p with PClass (Local n _ _ _) | PClass (External n) => [(low n, n)] | _ => [] end) ps.
  Definition child03 (p : property) : list finding := match p with PClass c => c03_class low c | _ => [] end.
  Lemma fold03 : forall ps a d,
    fold_left (fun st p => match p with
                           | PClass c => (fst st ++ c03_class low c, match c with Root _ => snd st | External n | Local n _ _ _ => push (low n) n (snd st) end)
                           | _ => st
                           end) ps (a, d) =
    (a ++ flat_map child03 ps, fold_left (fun m e => push (fst e) (snd e) m) (class_entries ps) d).
  Proof.
    induction ps as [|p ps IH]; intros a d; [cbn; now rewrite app_nil_r|]. cbn [fold_left flat_map class_entries]. fold (class_entries ps).
    rewrite fold_left_app. destruct p as [n v e|[qs|n pa qs mb|n]|n|n]; cbn [child03 app fst snd fold_left]; rewrite IH; cbn [fst snd]; now rewrite <- ?app_assoc.
  Qed.
  Lemma called_at : forall ps k, at_key (list_eq_dec N.eq_dec) k (class_entries ps) = classes_called low ps k.
  Proof.
    intros ps k. unfold class_entries, classes_called. induction ps as [|p ps IH]; [reflexivity|]. cbn [flat_map]. rewrite at_key_app, IH. f_equal.
    destruct p as [n v e|[qs|n pa qs mb|n]|n|n]; cbn [app]; try reflexivity; apply at_key_one.
  Qed.
  Lemma report03 : forall ps x, In x (c03_report (fold_left (fun m e => push (fst e) (snd e) m) (class_entries ps) [])) <->
    exists k, (2 <= length (classes_called low ps k))%nat /\ x = Some (DuplicateClasses (classes_called low ps k)).
  Proof.
    intros ps x. destruct (group_eq (fun k : bytes => k) (list_eq_dec N.eq_dec) (fun _ => True) (fun a b _ _ E => E) (class_entries ps) (fun _ _ => I)) as (ks & Hnd & Hin & Heq).
    unfold group in Heq. rewrite Heq. unfold c03_report. rewrite in_flat_map. split.
    - intros ([k' l] & Hk & Hx). apply in_map_iff in Hk as (k & [= <- <-] & Hk). cbn [snd] in Hx. rewrite called_at in Hx.
      destruct (Nat.ltb_spec 1 (length (classes_called low ps k))) as [Hl|Hl]; [|destruct Hx]. destruct Hx as [<-|[]]. exists k. split; [lia|reflexivity].
    - intros (k & Hl & ->). assert (Hk : In k ks).
      { apply Hin. destruct (in_dec (list_eq_dec N.eq_dec) k (map fst (class_entries ps))) as [Hi|Hi]; [exact Hi|].
        apply (at_key_nil (list_eq_dec N.eq_dec)) in Hi. rewrite called_at in Hi. rewrite Hi in Hl. cbn in Hl. lia. }
      exists (k, at_key (list_eq_dec N.eq_dec) k (class_entries ps)). split; [apply in_map_iff; eauto|]. cbn [snd]. rewrite called_at.
      destruct (Nat.ltb_spec 1 (length (classes_called low ps k))) as [_|Hl']; [now left|lia].
  Qed.
  Definition doubled (ps : list property) (x : finding) : Prop :=
    exists b k, body ps b /\ (2 <= length (classes_called low b k))%nat /\ x = Some (DuplicateClasses (classes_called low b k)).
  Theorem c03_exact : forall ps x, In x (c03 low ps) <-> doubled ps x.
  Proof.
    assert (P : forall ps, Forall (Pprop (fun c => forall x, In x (c03_class low c) <-> doubled (class_body c) x)) ps ->
      forall x, In x (c03_class low (Root ps)) <-> doubled ps x).
    { intros ps F x. cbn [c03_class]. rewrite fold03. cbn [fst snd app]. rewrite in_app_iff, report03, in_flat_map. rewrite Forall_forall in F. split.
      - intros [(p & Hp & Hx)|(k & Hl & ->)].
        + destruct p as [n v e|c|n|n]; try (now destruct Hx). cbn [child03] in Hx. apply (F _ Hp) in Hx as (b & k & Hb & Hl & ->).
          destruct c as [qs|n pa qs mb|n]; cbn [class_body] in Hb.
          * exists b, k. split; [eapply B_root; eauto|auto].
          * exists b, k. split; [eapply B_local; eauto|auto].
          * inversion Hb as [|? ? ? Hi ?|? ? ? ? ? ? Hi ?]; subst; try (now destruct Hi). cbn in Hl. lia.
        + exists ps, k. split; [constructor|auto].
      - intros (b & k & Hb & Hl & ->). inversion Hb as [|? qs ? Hi Hb'|? n pa qs mb ? Hi Hb']; subst.
        + right. eauto.
        + left. eexists. split; [exact Hi|]. apply (F _ Hi). exists b, k. auto.
        + left. eexists. split; [exact Hi|]. apply (F _ Hi). exists b, k. auto. }
    assert (C : forall c x, In x (c03_class low c) <-> doubled (class_body c) x).
    { induction c as [ps IH|n pa ps mb IH|n] using class_ind'; intros x; [now apply P|exact (P ps IH x)|].
      cbn [c03_class class_body]. split; [intros []|]. intros (b & k & Hb & Hl & ->). inversion Hb as [|? ? ? Hi ?|? ? ? ? ? ? Hi ?]; subst; try (now destruct Hi). cbn in Hl. lia. }
    intros ps x. apply (C (Root ps)).
  Qed.
End Lints.
