(** Proofs about Workspace/ProcessedModel.v. *)
From Coq Require Import String.
From Verif Require Import Base.Tactics Base.Bytes Base.Ascii Base.Text Preproc.Model Preproc.LexModel Preproc.LexSpec Preproc.LexProofs Workspace.ProcessedModel Workspace.Spec.
Local Open Scope N_scope.
Local Open Scope list_scope.

Section OutputInd.
  Context (P : output -> Prop) (HD : forall t, P (Direct t)) (HM : forall t l, Forall P l -> P (Macro t l)).
  Fixpoint output_ind' (o : output) : P o :=
    match o with
    | Direct t => HD t
    | Macro t l => HM t l ((fix go l : Forall P l := match l with [] => Forall_nil _ | o :: r => Forall_cons o (output_ind' o) (go r) end) l)
    end.
End OutputInd.

Lemma chars_app a b : chars (a ++ b) = chars a + chars b.
Proof. unfold chars. rewrite app_length. lia. Qed.
Lemma text_eqb_spec a b : text_eqb a b = true <-> a = b.
Proof. unfold text_eqb. destruct (text_dec a b); split; congruence. Qed.
Lemma column_app a b n : column (a ++ b) n = column b (column a n).
Proof. revert n. induction a as [|c a IH]; intro n; [reflexivity|]. apply IH. Qed.
Lemma column_plain a n : ~ In 10 a -> column a n = n + chars a.
Proof.
  revert n. induction a as [|c a IH]; intros n H; [cbn; unfold chars; cbn; lia|]. cbn [column].
  destruct (N.eqb_spec c 10) as [->|]; [destruct H; left; auto|]. rewrite IH by (intro; apply H; right; auto).
  unfold chars. cbn [length]. lia.
Qed.
Lemma breaks_app' a b : breaks (a ++ b) = breaks a + breaks b.
Proof. unfold breaks. rewrite count_occ_app. lia. Qed.
Lemma breaks_plain a : ~ In 10 a -> breaks a = 0.
Proof. intro H. unfold breaks. rewrite (proj1 (count_occ_not_In N.eq_dec a 10)) by auto. reflexivity. Qed.

Lemma last_of_app {A} (l : list A) x : last_of (l ++ [x]) = Some x.
Proof. induction l as [|y l IH]; [reflexivity|]. cbn [app last_of]. rewrite IH. now destruct (l ++ [x]) eqn:E; [destruct l|]. Qed.
Lemma last_of_in {A} (l : list A) x : last_of l = Some x -> In x l.
Proof.
  induction l as [|y l IH]; [discriminate|]. cbn [last_of]. destruct l as [|z l]; [intros [= ->]; now left|]. intro H. right. auto.
Qed.
Lemma last_of_none {A} (l : list A) : last_of l = None -> l = [].
Proof. induction l as [|y l IH]; [reflexivity|]. cbn [last_of]. destruct l; [discriminate|]. intro H. discriminate IH; auto. Qed.
Lemma last_of_app_r {A} (l r : list A) : r <> [] -> last_of (l ++ r) = last_of r.
Proof.
  intro H. destruct (exists_last H) as (r' & x & ->). rewrite app_assoc, !last_of_app. reflexivity.
Qed.

Section Proofs.
  Context (read : text -> option text).
  Notation append1 := (append1 read).
  Notation append := (append read).

  Lemma append1_macro root l p : append1 (Macro root l) p = match append l p with Done q => finish read p q root | e => e end.
  Proof. reflexivity. Qed.
  Lemma append_app a b p : append (a ++ b) p = match append a p with Done q => append b q | e => e end.
  Proof. revert p. induction a as [|o a IH]; intro p; [reflexivity|]. cbn [app ProcessedModel.append]. destruct (append1 o p); auto. Qed.

  (** A list of sources that is what the files say, each once. *)
  Definition good_sources (l : list (text * text)) : Prop :=
    NoDup (map fst l) /\ forall f c, In (f, c) l -> read f = Some c.
  Lemma position_spec path l : match position path l with
    | Some i => exists c, nth_error l i = Some (path, c)
    | None => ~ In path (map fst l) end.
  Proof.
    induction l as [|[q c] l IH]; cbn [position]; [intros []|]. destruct (text_eqb q path) eqn:E.
    - apply text_eqb_spec in E. subst. exists c. reflexivity.
    - destruct (position path l) as [i|]; cbn [option_map].
      + destruct IH as (c' & IH). exists c'. exact IH.
      + intros [H|H]; [|auto]. cbn in H. apply text_eqb_spec in H. congruence.
  Qed.
  Lemma source_index_spec path l i l' : source_index read path l = Some (i, l') -> good_sources l ->
    good_sources l' /\ (exists x, l' = l ++ x) /\ exists c, nth_error l' i = Some (path, c).
  Proof.
    unfold source_index. intros H [G1 G2]. pose proof (position_spec path l) as S. destruct (position path l) as [j|].
    - injection H as <- <-. repeat split; auto. exists []. now rewrite app_nil_r.
    - destruct (read path) as [c|] eqn:R; [|discriminate]. injection H as <- <-. repeat split.
      + rewrite map_app. cbn. apply NoDup_rev in G1. rewrite <- (rev_involutive (map fst l ++ [path])). apply NoDup_rev.
        rewrite rev_app_distr. cbn. constructor; auto. now rewrite <- in_rev.
      + intros f c' Hf. apply in_app_or in Hf. destruct Hf as [Hf|[[= <- <-]|[]]]; auto.
      + eauto.
      + exists c. rewrite nth_error_app2 by lia. now rewrite Nat.sub_diag.
  Qed.

  Definition inv (p : processed) : Prop := total p = chars (o_text p) /\ good_sources (sources p).
  (** The mapping belongs to a source of [p]. *)
  Definition placed (p : processed) (m : mapping) : Prop :=
    m_orig m = t_pos (m_token m) /\ exists c, nth_error (sources p) (m_source m) = Some (p_path (m_orig m), c).
  (** What appending does to the state. *)
  Definition grows (p q : processed) (added : list mapping) (extra : text) : Prop :=
    maps q = maps p ++ added /\ o_text q = o_text p ++ extra /\ (exists x, sources q = sources p ++ x) /\ inv q /\
    Forall (fun m => total p <= lc_off (m_start m) < total q \/ m_macro m = true /\ total p <= lc_off (m_start m) <= lc_off (m_end m) /\ lc_off (m_end m) <= total q) added /\
    Forall (placed q) added.

  Lemma placed_mono p q m x : sources q = sources p ++ x -> placed p m -> placed q m.
  Proof. intros E [A (c & B)]. split; auto. exists c. rewrite E, nth_error_app1; auto. apply nth_error_Some. congruence. Qed.

  Lemma grows_refl p : inv p -> grows p p [] [].
  Proof. intros I. repeat split; auto; rewrite ?app_nil_r; auto; try apply I. exists []. now rewrite app_nil_r. Qed.
  Lemma grows_total p q a e : inv p -> grows p q a e -> total q = total p + chars e.
  Proof. intros [T _] (_ & E & _ & [T' _] & _). rewrite T', T, E, chars_app. reflexivity. Qed.
  Lemma grows_trans p q r a b x y : inv p -> grows p q a x -> grows q r b y -> grows p r (a ++ b) (x ++ y).
  Proof.
    intros I G H. pose proof (grows_total _ _ _ _ I G) as T1. pose proof (grows_total _ _ _ _ (proj1 (proj2 (proj2 (proj2 G)))) H) as T2.
    destruct G as (A1 & A2 & (s1 & A3) & A4 & A5 & A6), H as (B1 & B2 & (s2 & B3) & B4 & B5 & B6).
    repeat split; try apply B4.
    - now rewrite B1, A1, app_assoc.
    - now rewrite B2, A2, app_assoc.
    - exists (s1 ++ s2). now rewrite B3, A3, app_assoc.
    - apply Forall_app. split; [eapply Forall_impl; [|exact A5]|eapply Forall_impl; [|exact B5]]; cbn beta; (intros m [Hm|[M Hm]]; [left; lia|right; split; [exact M|lia]]).
    - apply Forall_app. split; auto. eapply Forall_impl; [|exact A6]. intros m Hm. eapply placed_mono; eauto.
  Qed.

  (** The mapping an item of the output must get. *)
  Definition item_mapping (o : output) (p : processed) (m : mapping) : Prop :=
    m_token m = item_token o /\ m_macro m = item_macro o /\ m_start m = LC (total p) (line p) (col p) /\ total p <= lc_off (m_start m).

  Lemma append_token_grows p t q : inv p -> append_token read p t = Done q ->
    exists a e, grows p q a e /\ forall i, total p <= i < total q ->
      exists m, a = [m] /\ item_mapping (Direct t) p m /\ covers i m = true.
  Proof.
    intros [T S] H. unfold append_token in H. destruct (source_index read (p_path (t_pos t)) (sources p)) as [[i ss]|] eqn:E; [|discriminate].
    destruct (source_index_spec _ _ _ _ E S) as (S' & (x & Ex) & c & Ec).
    destruct (is_newline (t_sym t)).
    - injection H as <-. eexists [_], [10]. split.
      + unfold grows, inv. cbn [maps o_text sources total]. repeat split; eauto; try apply S'.
        * rewrite T, chars_app. reflexivity.
        * constructor; [|constructor]. left. cbn. lia.
        * constructor; [|constructor]. split; [reflexivity|]. exists c. exact Ec.
      + cbn [total]. intros k Hk. eexists. split; [reflexivity|]. split; [unfold item_mapping; cbn; repeat split; lia|]. unfold covers. cbn. lia.
    - destruct (text_eqb (tok_text t) []) eqn:E1.
      { injection H as <-. exists [], []. split; [|cbn [total]; lia]. unfold grows, inv. cbn [maps o_text sources total]. rewrite !app_nil_r. repeat split; eauto; apply S'. }
      destruct (text_eqb (tok_text t) (bs "##") && _) eqn:E2.
      { injection H as <-. exists [], []. split; [|cbn [total]; lia]. unfold grows, inv. cbn [maps o_text sources total]. rewrite !app_nil_r. repeat split; eauto; apply S'. }
      assert (0 < chars (tok_text t)) as Pos. { destruct (tok_text t) eqn:X; [discriminate|]. unfold chars. cbn [length]. lia. }
      injection H as <-. eexists [_], (tok_text t). split.
      + unfold grows, inv. cbn [maps o_text sources total]. repeat split; eauto; try apply S'.
        * rewrite T, chars_app. reflexivity.
        * constructor; [|constructor]. left. cbn. lia.
        * constructor; [|constructor]. split; [reflexivity|]. exists c. exact Ec.
      + cbn [total]. intros k Hk. eexists. split; [reflexivity|]. split; [unfold item_mapping; cbn; repeat split; lia|]. unfold covers. cbn. lia.
  Qed.

  Definition good_item (o : output) : Prop := forall p q, inv p -> append1 o p = Done q ->
    exists a e, grows p q a e /\ forall i, total p <= i < total q ->
      exists b m, a = b ++ [m] /\ item_mapping o p m /\ covers i m = true.

  Lemma append_grows' l : Forall good_item l -> forall p q, inv p -> append l p = Done q -> exists a e, grows p q a e.
  Proof.
    induction 1 as [|o l Ho Hl IH]; intros p q I H.
    - injection H as <-. exists [], []. now apply grows_refl.
    - cbn [ProcessedModel.append] in H. destruct (append1 o p) as [r| |] eqn:E; try discriminate.
      destruct (Ho p r I E) as (a & e & G & _). destruct (IH r q (proj1 (proj2 (proj2 (proj2 G)))) H) as (b & f & G2).
      exists (a ++ b), (e ++ f). eapply grows_trans; eauto.
  Qed.
  Lemma append1_good o : good_item o.
  Proof.
    induction o as [t|root l IH] using output_ind'; intros p q I H.
    - destruct (append_token_grows p t q I H) as (a & e & G & M). exists a, e. split; auto. intros i Hi. destruct (M i Hi) as (m & -> & X). exists [], m. auto.
    - rewrite append1_macro in H. destruct (append l p) as [r| |] eqn:E; try discriminate.
      destruct (append_grows' l IH p r I E) as (a & e & G). pose proof (grows_total _ _ _ _ I G) as T.
      unfold finish in H. destruct (source_index read (p_path (t_pos root)) (sources r)) as [[i ss]|] eqn:Es; [|discriminate]. injection H as <-.
      destruct G as (A1 & A2 & (s1 & A3) & A4 & A5 & A6). destruct (source_index_spec _ _ _ _ Es (proj2 A4)) as (S' & (x & Ex) & c & Ec).
      eexists (a ++ [_]), e. split.
      + unfold grows, inv. cbn [maps o_text sources total]. repeat split.
        * now rewrite A1, app_assoc.
        * exact A2.
        * exists (s1 ++ x). now rewrite Ex, A3, app_assoc.
        * apply A4.
        * apply S'.
        * apply S'.
        * apply Forall_app. split; [exact A5|]. constructor; [|constructor]. right. cbn. lia.
        * apply Forall_app. split; [|constructor; [|constructor]].
          -- eapply Forall_impl; [|exact A6]. intros m Hm. eapply placed_mono; [exact Ex|exact Hm].
          -- split; [reflexivity|]. exists c. exact Ec.
      + cbn [total]. intros k Hk. exists a. eexists. split; [reflexivity|]. split; [unfold item_mapping; cbn; repeat split; lia|]. unfold covers. cbn. lia.
  Qed.
  Lemma append_grows l p q : inv p -> append l p = Done q -> exists a e, grows p q a e.
  Proof. apply append_grows'. apply Forall_forall. intros o _. apply append1_good. Qed.
  Lemma inv_empty : inv empty.
  Proof. repeat split; try constructor. intros f c []. Qed.

  (** The last mapping that covers an offset is the one of the item that wrote it. *)
  Lemma mapping_of_item p q r a e o m l i : inv p -> append1 o p = Done q -> append l q = Done r ->
    grows p q (a ++ [m]) e -> total p <= i < total q -> item_mapping o p m -> covers i m = true ->
    mapping_at r i = Some m.
  Proof.
    intros I H1 H2 G Hi Hm Hc. destruct (append_grows l q r (proj1 (proj2 (proj2 (proj2 G)))) H2) as (b & f & G2).
    unfold mapping_at, mappings. destruct G as (A1 & _). destruct G2 as (B1 & _ & _ & _ & B5 & _). rewrite B1, A1.
    rewrite <- !app_assoc. rewrite !filter_app. cbn [filter app]. rewrite Hc.
    assert (filter (covers i) b = []) as ->.
    { clear -B5 Hi. induction B5 as [|x b Hx B IH]; [reflexivity|]. cbn [filter]. replace (covers i x) with false; auto. unfold covers. cbn beta in Hx. lia. }
    rewrite app_nil_r, !app_assoc. apply last_of_app.
  Qed.

  Lemma new_app a b p : new read (a ++ b) = Done p -> exists q, new read a = Done q /\ append b q = Done p /\ inv q.
  Proof.
    unfold new. rewrite append_app. destruct (append a empty) as [q| |] eqn:E; try discriminate. intro H. exists q. repeat split; auto;
      destruct (append_grows _ _ _ inv_empty E) as (x & y & G); apply G.
  Qed.

  (** Which item wrote a character. *)
  Lemma find_item l p : inv p -> forall r, append l p = Done r -> forall i, total p <= i < total r ->
    exists a o b q q', l = a ++ o :: b /\ append a p = Done q /\ append1 o q = Done q' /\ append b q' = Done r /\ inv q /\ total q <= i < total q'.
  Proof.
    revert p. induction l as [|o l IH]; intros p I r H i Hi.
    - injection H as <-. lia.
    - cbn [ProcessedModel.append] in H. destruct (append1 o p) as [q| |] eqn:E; try discriminate.
      destruct (append1_good o p q I E) as (a & e & G & _).
      destruct (N.lt_ge_cases i (total q)) as [Lt|Ge].
      + exists [], o, l, p, q. repeat split; auto; try apply I; lia.
      + destruct (IH q (proj1 (proj2 (proj2 (proj2 G)))) r H i ltac:(lia)) as (x & o' & y & s & s' & -> & H1 & H2 & H3 & H4 & H5).
        exists (o :: x), o', y, s, s'. split; [reflexivity|]. split; [|auto]. cbn [ProcessedModel.append]. now rewrite E.
  Qed.

  (** Lines and columns of the output. *)
  Definition lc_inv (p : processed) : Prop := line p = breaks (o_text p) /\ col p = column (o_text p) 0.
  Lemma append_token_lc p t q : one_line t -> lc_inv p -> append_token read p t = Done q -> lc_inv q.
  Proof.
    intros O [L C] H. unfold append_token in H. destruct (source_index read _ _) as [[i ss]|]; [|discriminate].
    destruct (is_newline (t_sym t)) eqn:E.
    - injection H as <-. unfold lc_inv. cbn [o_text line col]. rewrite breaks_app', column_app, L. split; reflexivity.
    - assert (~ In 10 (tok_text t)) as N. { intro X. apply O in X. rewrite X in E. discriminate. }
      destruct (text_eqb (tok_text t) []); [injection H as <-; split; auto|]. destruct (text_eqb (tok_text t) (bs "##") && _); [injection H as <-; split; auto|].
      injection H as <-. unfold lc_inv. cbn [o_text line col]. rewrite breaks_app', column_app, L, C, (breaks_plain (tok_text t)), (column_plain (tok_text t)) by auto. split; lia.
  Qed.
  Lemma append_lc' l : Forall (fun o => forall p q, Forall one_line (out_toks o) -> lc_inv p -> append1 o p = Done q -> lc_inv q) l ->
    forall p q, Forall one_line (flat_map out_toks l) -> lc_inv p -> append l p = Done q -> lc_inv q.
  Proof.
    induction 1 as [|o l Ho _ IH]; intros p q O I H; [injection H as <-; auto|]. cbn [ProcessedModel.append flat_map] in *. apply Forall_app in O. destruct O as [O1 O2].
    destruct (append1 o p) as [r| |] eqn:E; try discriminate. eauto.
  Qed.
  Lemma append1_lc o : forall p q, Forall one_line (out_toks o) -> lc_inv p -> append1 o p = Done q -> lc_inv q.
  Proof.
    induction o as [t|root l IH] using output_ind'; intros p q O I H.
    - apply Forall_inv in O. eapply append_token_lc; eauto.
    - rewrite append1_macro in H. cbn [out_toks] in O. destruct (append l p) as [r| |] eqn:E; try discriminate.
      pose proof (append_lc' l IH p r O I E) as [L C]. unfold finish in H. destruct (source_index read _ _) as [[i ss]|]; [|discriminate]. injection H as <-. split; auto.
  Qed.
  Lemma append_lc l p q : Forall one_line (flat_map out_toks l) -> lc_inv p -> append l p = Done q -> lc_inv q.
  Proof. apply append_lc'. apply Forall_forall. intros o _. apply append1_lc. Qed.

  Lemma direct_text p t q : append1 (Direct t) p = Done q -> o_text q = o_text p \/ o_text q = o_text p ++ tok_text t.
  Proof.
    cbn [ProcessedModel.append1]. unfold append_token. destruct (source_index read _ _) as [[i ss]|]; [|discriminate].
    destruct (t_sym t) eqn:E; cbn [is_newline]; unfold tok_text; rewrite E; cbn [sym_text];
      repeat match goal with |- context [if ?b then _ else _] => destruct b end; intros [= <-]; cbn [o_text]; auto.
  Qed.

  (** The text, when no quote and no [##] is involved. *)
  Lemma append_token_text p t q : append_token read p t = Done q ->
    stack q = quotes t (stack p) /\
    o_text q = o_text p ++ (if text_eqb (tok_text t) (bs "##") && match stack q with [] => true | _ => false end then [] else tok_text t).
  Proof.
    unfold append_token. destruct (source_index read _ _) as [[i ss]|]; [|discriminate]. destruct (is_newline (t_sym t)) eqn:En.
    - intros [= <-]. cbn [stack o_text]. destruct (t_sym t) eqn:Et; try discriminate. unfold tok_text. rewrite Et. cbn. auto.
    - destruct (text_eqb (tok_text t) []) eqn:E0.
      { intros [= <-]. cbn [stack o_text]. apply text_eqb_spec in E0. rewrite E0. cbn [text_eqb]. split; auto. cbn. now rewrite app_nil_r. }
      destruct (text_eqb (tok_text t) (bs "##") && match quotes t (stack p) with [] => true | _ => false end) eqn:E1; intros [= <-]; cbn [stack o_text]; rewrite E1; rewrite ?app_nil_r; auto.
  Qed.
  (** The state after the tokens alone. *)
  Fixpoint run_toks (ts : list token) (st : list N) : text * list N :=
    match ts with
    | [] => ([], st)
    | t :: r =>
        let st := quotes t st in
        let (s, st') := run_toks r st in
        ((if text_eqb (tok_text t) (bs "##") && match st with [] => true | _ => false end then [] else tok_text t) ++ s, st')
    end.
  Lemma run_toks_app a b st : run_toks (a ++ b) st = let (s, st1) := run_toks a st in let (s', st2) := run_toks b st1 in (s ++ s', st2).
  Proof.
    revert st. induction a as [|t a IH]; intro st; cbn [app run_toks].
    - now destruct (run_toks b st).
    - rewrite IH. destruct (run_toks a (quotes t st)) as [s st1]. destruct (run_toks b st1) as [s' st2]. now rewrite app_assoc.
  Qed.
  Definition runs (ts : list token) (p q : processed) : Prop :=
    o_text q = o_text p ++ fst (run_toks ts (stack p)) /\ stack q = snd (run_toks ts (stack p)).
  Lemma append_runs' l : Forall (fun o => forall p q, append1 o p = Done q -> runs (out_toks o) p q) l ->
    forall p q, append l p = Done q -> runs (flat_map out_toks l) p q.
  Proof.
    induction 1 as [|o l Ho _ IH]; intros p q H.
    - injection H as <-. unfold runs. cbn. now rewrite app_nil_r.
    - cbn [ProcessedModel.append flat_map] in *. destruct (append1 o p) as [r| |] eqn:E; try discriminate.
      destruct (Ho _ _ E) as [A1 A2]. destruct (IH _ _ H) as [B1 B2]. unfold runs. rewrite run_toks_app.
      destruct (run_toks (out_toks o) (stack p)) as [s st1]. cbn [fst snd] in *. subst st1.
      destruct (run_toks (flat_map out_toks l) (stack r)) as [s' st2]. cbn [fst snd] in *. rewrite B1, A1, app_assoc. auto.
  Qed.
  Lemma append1_runs o : forall p q, append1 o p = Done q -> runs (out_toks o) p q.
  Proof.
    induction o as [t|root l IH] using output_ind'; intros p q H.
    - cbn [ProcessedModel.append1 out_toks] in *. destruct (append_token_text _ _ _ H) as [A B]. unfold runs. cbn [run_toks]. rewrite <- A. cbn [fst snd]. rewrite B, app_nil_r. auto.
    - rewrite append1_macro in H. cbn [out_toks]. destruct (append l p) as [r| |] eqn:E; try discriminate.
      pose proof (append_runs' l IH p r E) as [A B]. unfold finish in H. destruct (source_index read _ _) as [[i ss]|]; [|discriminate]. injection H as <-. split; auto.
  Qed.
  Lemma new_runs l p : new read l = Done p -> o_text p = fst (run_toks (flat_map out_toks l) []).
  Proof.
    intro H. destruct (append_runs' l ltac:(apply Forall_forall; intros; apply append1_runs; auto) _ _ H) as [A _]. exact A.
  Qed.
  Lemma run_toks_nojoin ts : (forall t, In t ts -> tok_text t <> bs "##") -> forall st, fst (run_toks ts st) = toks_text ts.
  Proof.
    induction ts as [|t ts IH]; intros H st; [reflexivity|]. cbn [run_toks]. specialize (IH ltac:(intros; apply H; cbn; auto) (quotes t st)).
    destruct (run_toks ts (quotes t st)) as [s st']. cbn [fst] in *. subst s. unfold toks_text. cbn [flat_map]. f_equal.
    destruct (text_eqb (tok_text t) (bs "##")) eqn:E; [|reflexivity]. apply text_eqb_spec in E. destruct (H t); cbn; auto.
  Qed.
  Lemma run_toks_noquote ts : (forall t, In t ts -> t_sym t <> DQuote /\ t_sym t <> SQuote) ->
    fst (run_toks ts []) = toks_text (filter (fun t => negb (text_eqb (tok_text t) (bs "##"))) ts).
  Proof.
    induction ts as [|t ts IH]; intros H; [reflexivity|]. cbn [run_toks filter]. specialize (IH ltac:(intros; apply H; cbn; auto)).
    assert (quotes t [] = []) as ->. { unfold quotes. destruct (H t ltac:(cbn; auto)). destruct (t_sym t); congruence. }
    destruct (run_toks ts []) as [s st']. cbn [fst] in *. subst s. rewrite Bool.andb_true_r. destruct (text_eqb (tok_text t) (bs "##")); reflexivity.
  Qed.
End Proofs.

(** Cutting text by characters. *)
Lemma offsets_go_spec s : forall p a b ra rb, offsets_go s p a b ra rb = (ra + byte_len (take (a - p) s), rb + byte_len (take (b - p) s)).
Proof.
  induction s as [|c s IH]; intros p a b ra rb; cbn [offsets_go].
  - unfold take. rewrite !firstn_nil. cbn. rewrite !N.add_0_r. reflexivity.
  - rewrite IH. unfold take. f_equal.
    + destruct (N.ltb_spec p a) as [L|L].
      * replace (N.to_nat (a - p)) with (S (N.to_nat (a - (p + 1)))) by lia. cbn [firstn]. change (byte_len (c :: ?x)) with (ulen c + byte_len x). cbn [byte_len fold_right]. fold (byte_len (firstn (N.to_nat (a - (p + 1))) s)). lia.
      * replace (a - p) with 0 by lia. replace (a - (p + 1)) with 0 by lia. reflexivity.
    + destruct (N.ltb_spec p b) as [L|L].
      * replace (N.to_nat (b - p)) with (S (N.to_nat (b - (p + 1)))) by lia. cbn [firstn byte_len fold_right]. fold (byte_len (firstn (N.to_nat (b - (p + 1))) s)). lia.
      * replace (b - p) with 0 by lia. replace (b - (p + 1)) with 0 by lia. reflexivity.
Qed.
Lemma ulen_pos c : 1 <= ulen c.
Proof. unfold ulen. repeat match goal with |- context [if ?b then _ else _] => destruct b end; lia. Qed.
Lemma byte_len_cons c s : byte_len (c :: s) = ulen c + byte_len s.
Proof. reflexivity. Qed.
Lemma byte_len_app a b : byte_len (a ++ b) = byte_len a + byte_len b.
Proof. induction a as [|c a IH]; [reflexivity|]. cbn [app]. rewrite !byte_len_cons. lia. Qed.
Lemma split_bytes_app a b : split_bytes (byte_len a) (a ++ b) = Some (a, b).
Proof.
  induction a as [|c a IH]; [destruct b; reflexivity|]. rewrite byte_len_cons. pose proof (ulen_pos c). cbn [app split_bytes].
  replace (ulen c + byte_len a =? 0) with false by (symmetry; apply N.eqb_neq; lia).
  replace (ulen c + byte_len a <? ulen c) with false by (symmetry; apply N.ltb_ge; lia).
  replace (ulen c + byte_len a - ulen c) with (byte_len a) by lia. now rewrite IH.
Qed.
Lemma slice_app a m b : slice (a ++ m ++ b) (byte_len a) (byte_len (a ++ m)) = Some m.
Proof.
  unfold slice. rewrite byte_len_app. replace (byte_len a + byte_len m <? byte_len a) with false by (symmetry; apply N.ltb_ge; lia).
  rewrite split_bytes_app. replace (byte_len a + byte_len m - byte_len a) with (byte_len m) by lia. now rewrite split_bytes_app.
Qed.
Lemma take_cut a b s : a <= b -> s = take a s ++ take (b - a) (drop a s) ++ drop (b - a) (drop a s) /\ take b s = take a s ++ take (b - a) (drop a s).
Proof.
  intro L. unfold take, drop. split.
  - now rewrite !firstn_skipn.
  - rewrite <- (firstn_skipn (N.to_nat a) s) at 1. rewrite firstn_app.
    destruct (Nat.le_ge_cases (N.to_nat a) (length s)) as [Le|Ge].
    + rewrite firstn_length_le by lia. rewrite (firstn_all2 (firstn (N.to_nat a) s)) by (rewrite firstn_length_le; lia). f_equal. f_equal. lia.
    + rewrite (firstn_all2 s) by lia. rewrite (firstn_all2 s) by lia. rewrite (skipn_all2 s) by lia. now rewrite !firstn_nil.
Qed.
Lemma extract_spec p a b : a <= b -> extract p a b = Some (take (b - a) (drop a (o_text p))).
Proof.
  intro L. unfold extract. destruct (N.eqb_spec a b) as [->|Ne].
  - rewrite N.sub_diag. reflexivity.
  - rewrite offsets_go_spec, !N.add_0_l, !N.sub_0_r. destruct (take_cut a b (o_text p) L) as [E1 E2]. rewrite E2. rewrite E1 at 1. apply slice_app.
Qed.
Lemma extract_from_spec p a : extract_from p a = Some (drop a (o_text p)).
Proof.
  unfold extract_from. rewrite offsets_go_spec, !N.add_0_l, !N.sub_0_r.
  pose proof (slice_app (take a (o_text p)) (drop a (o_text p)) []) as X. rewrite app_nil_r in X.
  unfold take, drop in *. rewrite firstn_skipn in X. exact X.
Qed.
