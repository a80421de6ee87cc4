(** Proofs for C97. *)
From Coq Require Import String Permutation.
From Verif Require Import Base.Tactics Base.Bytes Base.Sort Base.Ascii Base.Text.
From Verif Require Import Hls.DiagModel Hls.DiagSpec.
Local Open Scope list_scope.

(** ** Maps *)
Definition pick {A} (u : text) (m : list (text * list A)) : list A := flat_map (fun x => if eqb_bytes (fst x) u then snd x else []) m.
Lemma extend_pick {A} k (l : list A) u m : Permutation (pick u (extend k l m)) (pick u m ++ (if eqb_bytes k u then l else [])).
Proof.
  induction m as [|[k' l'] m IH]; cbn [extend pick flat_map fst snd].
  - cbn [app]. now rewrite app_nil_r.
  - destruct (eqb_bytes k' k) eqn:E.
    + apply eqb_bytes_spec in E as ->. cbn [flat_map fst snd]. destruct (eqb_bytes k u); [|now rewrite app_nil_r]. rewrite <- !app_assoc. apply Permutation_app_head, Permutation_app_comm.
    + cbn [flat_map fst snd]. rewrite <- app_assoc. apply Permutation_app_head. exact IH.
Qed.
Lemma extend_keys {A} k (l : list A) m x : In x (map fst (extend k l m)) <-> x = k \/ In x (map fst m).
Proof.
  induction m as [|[k' l'] m IH]; cbn [extend map fst In].
  - intuition congruence.
  - destruct (eqb_bytes k' k) eqn:E; cbn [map fst In].
    + apply eqb_bytes_spec in E as ->. intuition congruence.
    + rewrite IH. intuition congruence.
Qed.
Lemma extend_once {A} k (l : list A) m : NoDup (map fst m) -> NoDup (map fst (extend k l m)).
Proof.
  induction m as [|[k' l'] m IH]; cbn [extend map fst]; intros ND; [constructor; [intros []|constructor]|]. inversion ND as [|? ? N1 N2]; subst.
  destruct (eqb_bytes k' k) eqn:E; cbn [map fst]; constructor; auto. rewrite extend_keys. intros [->|I]; [now rewrite eqb_bytes_refl in E|auto].
Qed.
Section Fold.
  Context {A B : Type} (key : A -> text) (val : A -> list B).
  Let go := fun m (e : A) => extend (key e) (val e) m.
  Lemma fold_pick u es : forall m, Permutation (pick u (fold_left go es m)) (pick u m ++ flat_map (fun e => if eqb_bytes (key e) u then val e else []) es).
  Proof.
    induction es as [|e es IH]; intros m; cbn [fold_left flat_map]; [now rewrite app_nil_r|]. unfold go at 2. rewrite IH, extend_pick, <- app_assoc. reflexivity.
  Qed.
  Lemma fold_once es : forall m, NoDup (map fst m) -> NoDup (map fst (fold_left go es m)).
  Proof. induction es as [|e es IH]; intros m ND; cbn [fold_left]; [exact ND|]. apply IH. now apply extend_once. Qed.
End Fold.
Lemma pick_perm {A} u (m m' : list (text * list A)) : Permutation m m' -> Permutation (pick u m) (pick u m').
Proof.
  unfold pick. induction 1; cbn [flat_map]; auto.
  - now apply Permutation_app_head.
  - rewrite !app_assoc. apply Permutation_app_tail, Permutation_app_comm.
  - etransitivity; eassumption.
Qed.
Lemma flat_map_perm {A B} (f : A -> list B) l l' : Permutation l l' -> Permutation (flat_map f l) (flat_map f l').
Proof.
  induction 1; cbn [flat_map]; auto.
  - now apply Permutation_app_head.
  - rewrite !app_assoc. apply Permutation_app_tail, Permutation_app_comm.
  - etransitivity; eassumption.
Qed.
Lemma pick_none {A} u (m : list (text * list A)) : ~ In u (map fst m) -> pick u m = [].
Proof.
  intros N0. unfold pick. induction m as [|[k l] m IH]; [reflexivity|]. cbn [map fst In flat_map snd] in *. destruct (eqb_bytes k u) eqn:E; [apply eqb_bytes_spec in E; subst; now destruct N0; left|]. apply IH. intuition.
Qed.

(** What is shown when messages have been sent. *)
Definition flush {A} (v : text -> list A) (ms : list (text * list A)) : text -> list A :=
  fold_left (fun v m x => if eqb_bytes x (fst m) then snd m else v x) ms v.
Lemma flush_app {A} (v : text -> list A) a b : flush v (a ++ b) = flush (flush v a) b.
Proof. unfold flush. now rewrite fold_left_app. Qed.
Lemma flush_files {A} ms : NoDup (map fst ms) -> forall (v : text -> list A) u, flush v ms u = if in_dec (list_eq_dec N.eq_dec) u (map fst ms) then pick u ms else v u.
Proof.
  induction ms as [|[k l] ms IH]; intros ND v u.
  - cbn [flush fold_left map]. destruct (in_dec _ _ _) as [[]|_]. reflexivity.
  - cbn [map fst] in ND. inversion ND as [|? ? N1 N2]; subst. change (flush v ((k, l) :: ms)) with (flush (fun x => if eqb_bytes x k then l else v x) ms). rewrite (IH N2).
    cbn [map fst]. destruct (in_dec _ u (map fst ms)) as [I|NI]; destruct (in_dec _ u (k :: map fst ms)) as [I'|NI']; cbn [In] in *.
    + unfold pick. cbn [flat_map fst snd]. destruct (eqb_bytes k u) eqn:E; [apply eqb_bytes_spec in E; subst; now destruct N1|]. reflexivity.
    + intuition.
    + destruct I' as [->|I']; [|contradiction]. rewrite eqb_bytes_refl. unfold pick. cbn [flat_map fst snd]. rewrite eqb_bytes_refl. fold (pick u ms). now rewrite pick_none, app_nil_r.
    + destruct (eqb_bytes u k) eqn:E; [apply eqb_bytes_spec in E; subst; now destruct NI'; left|reflexivity].
Qed.
Lemma flush_clears {A} us : forall (v : text -> list A) u, flush v (map (fun u => (u, [])) us) u = if in_dec (list_eq_dec N.eq_dec) u us then [] else v u.
Proof.
  induction us as [|k us IH]; intros v u; [now destruct (in_dec _ _ _) as [[]|_]|].
  cbn [map]. change (flush v ((k, []) :: map (fun u => (u, [])) us)) with (flush (fun x => if eqb_bytes x k then [] else v x) (map (fun u => (u, [])) us)). rewrite IH.
  destruct (in_dec _ u us) as [I|NI]; destruct (in_dec _ u (k :: us)) as [I'|NI']; cbn [In] in *; [reflexivity|intuition| |].
  - destruct I' as [->|I']; [|contradiction]. now rewrite eqb_bytes_refl.
  - destruct (eqb_bytes u k) eqn:E; [apply eqb_bytes_spec in E; subst; now destruct NI'; left|reflexivity].
Qed.

Lemma split_nth {A} i (l : list A) x : nth_error l i = Some x -> exists a b, l = a ++ x :: b /\ forall r, replace_at i l r = a ++ r ++ b.
Proof.
  revert l. induction i as [|i IH]; intros [|y l]; cbn [nth_error replace_at]; try discriminate.
  - intros [= ->]. exists [], l. auto.
  - intros E. destruct (IH l E) as (a & b & -> & R). exists (y :: a), b. split; [reflexivity|]. intros r. now rewrite R.
Qed.

Section Server.
  Context {diag : Type}.
  Context (outcome : (text -> text) -> text -> list text * list (text * diag)) (to_url : text -> text).
  Context (order_entries : nat -> list (text * text * list diag) -> list (text * text * list diag)).
  Context (order_urls : nat -> list text -> list text).
  Context (order_files : nat -> list (text * list diag) -> list (text * list diag)).
  Hypothesis Entries : forall n l, Permutation (order_entries n l) l.
  Hypothesis Urls : forall n l, Permutation (order_urls n l) l.
  Hypothesis Files : forall n l, Permutation (order_files n l) l.
  Hypothesis Distinct : forall f g, to_url f = to_url g -> f = g.
  Context (addons : list text) (Once : NoDup addons).
  Context (matters : (text -> text) -> text -> list text).
  Hypothesis Frame : forall d f x c, ~ In f (matters d c) -> outcome (fun g => if eqb_bytes g f then x else d g) c = outcome d c.

  Notation step := (step outcome to_url order_entries order_urls order_files).
  Notation puts := (puts to_url order_files).
  Notation run := (run outcome to_url order_entries order_urls order_files).

  (** ** The worker's map *)
  Definition ent (cur : list (text * text * list diag)) (sc u : text) : list diag := flat_map (fun e => if is_key sc u e then snd e else []) cur.
  Definition all_at (cur : list (text * text * list diag)) (u : text) : list diag := flat_map (fun e => if eqb_bytes (snd (fst e)) u then snd e else []) cur.
  Lemma is_key_spec sc u (e : text * text * list diag) : is_key sc u e = true <-> fst e = (sc, u).
  Proof. destruct e as [[a b] ds]. unfold is_key. cbn [fst snd]. rewrite andb_true_iff, !eqb_bytes_spec. split; [intros [-> ->]; reflexivity|intros [= -> ->]; auto]. Qed.
  Lemma ent_filter (p : text * text * list diag -> bool) cur sc u : (forall e, fst e = (sc, u) -> p e = true) -> ent (filter p cur) sc u = ent cur sc u.
  Proof.
    intros P. unfold ent. induction cur as [|e cur IH]; [reflexivity|]. cbn [filter flat_map]. destruct (is_key sc u e) eqn:K.
    - apply is_key_spec in K. rewrite (P e K). cbn [flat_map]. assert (is_key sc u e = true) as -> by now apply is_key_spec. now rewrite IH.
    - destruct (p e); cbn [flat_map]; rewrite ?K; exact IH.
  Qed.
  Lemma ent_filter_none (p : text * text * list diag -> bool) cur sc u : (forall e, fst e = (sc, u) -> p e = false) -> ent (filter p cur) sc u = [].
  Proof.
    intros P. unfold ent. induction cur as [|e cur IH]; [reflexivity|]. cbn [filter]. destruct (p e) eqn:Pe; [|exact IH]. cbn [flat_map]. destruct (is_key sc u e) eqn:K; [|exact IH]. apply is_key_spec, P in K. congruence.
  Qed.
  Lemma ent_set sc u ds w sc' u' : ent (current (set_current sc u ds w)) sc' u' = if andb (eqb_bytes sc sc') (eqb_bytes u u') then ds else ent (current w) sc' u'.
  Proof.
    cbn [set_current current]. unfold ent at 1. cbn [flat_map]. fold (ent (filter (fun e => negb (is_key sc u e)) (current w)) sc' u').
    destruct (andb (eqb_bytes sc sc') (eqb_bytes u u')) eqn:K.
    - apply andb_true_iff in K as [K1 K2]. apply eqb_bytes_spec in K1 as ->. apply eqb_bytes_spec in K2 as ->.
      assert (is_key sc' u' (sc', u', ds) = true) as -> by now apply is_key_spec. cbn [snd]. rewrite ent_filter_none; [now rewrite app_nil_r|]. intros e E. apply is_key_spec in E. now rewrite E.
    - assert (is_key sc' u' (sc, u, ds) = false) as -> by exact K. cbn [app]. apply ent_filter. intros e E. destruct (is_key sc u e) eqn:K'; [|reflexivity]. apply is_key_spec in K'. rewrite E in K'. injection K' as -> ->. now rewrite !eqb_bytes_refl in K.
  Qed.
  Lemma ent_clear sc w sc' u' : ent (current (clear_current sc w)) sc' u' = if eqb_bytes sc sc' then [] else ent (current w) sc' u'.
  Proof.
    cbn [clear_current current]. destruct (eqb_bytes sc sc') eqn:K.
    - apply eqb_bytes_spec in K as ->. apply ent_filter_none. intros e ->. cbn [fst]. now rewrite eqb_bytes_refl.
    - apply ent_filter. intros e ->. cbn [fst]. rewrite eqb_bytes_sym, K. reflexivity.
  Qed.
  Lemma scope_inj a b : scope_of a = scope_of b -> a = b.
  Proof. unfold scope_of. apply app_inv_head. Qed.
  Lemma scope_neq a b : a <> b -> eqb_bytes (scope_of a) (scope_of b) = false.
  Proof. intros Nq. apply eqb_bytes_false. intros E. now apply Nq, scope_inj. Qed.

  Lemma spread (x : list diag) (g : text -> list diag) c l : NoDup l -> In c l -> Permutation (flat_map (fun a => (if eqb_bytes c a then x else []) ++ g a) l) (x ++ flat_map g l).
  Proof.
    induction l as [|a l IH]; intros ND I; [destruct I|]. inversion ND as [|? ? N1 N2]; subst; cbn [flat_map]. destruct I as [->|I].
    - rewrite eqb_bytes_refl, <- !app_assoc. do 2 apply Permutation_app_head. clear - N1. induction l as [|b l IH]; [reflexivity|]. cbn [flat_map]. rewrite (proj2 (eqb_bytes_false c b)); [|intros ->; apply N1; now left]. cbn [app]. apply Permutation_app_head, IH. intros I. apply N1. now right.
    - rewrite (proj2 (eqb_bytes_false c a)) by (intros ->; contradiction). cbn [app]. rewrite (IH N2 I), !app_assoc. apply Permutation_app_tail, Permutation_app_comm.
  Qed.
  Lemma all_by_scope cur u : Forall (fun e => exists c, In c addons /\ fst (fst e) = scope_of c) cur -> Permutation (all_at cur u) (flat_map (fun c => ent cur (scope_of c) u) addons).
  Proof using Once.
    induction 1 as [|e cur (c & Ic & Ec) F IH].
    - unfold all_at, ent. cbn [flat_map]. clear. induction addons as [|a l IH]; [reflexivity|exact IH].
    - unfold all_at. cbn [flat_map]. fold (all_at cur u). rewrite IH. symmetry.
      etransitivity; [|apply (spread (if eqb_bytes (snd (fst e)) u then snd e else []) (fun c => ent cur (scope_of c) u) c addons Once Ic)].
      apply Permutation_refl'. apply flat_map_ext. intros a. unfold ent at 1. cbn [flat_map]. f_equal. unfold is_key. rewrite Ec.
      destruct (eqb_bytes c a) eqn:E; [apply eqb_bytes_spec in E as ->; rewrite eqb_bytes_refl; reflexivity|]. rewrite scope_neq; [reflexivity|]. now apply eqb_bytes_false.
  Qed.

  (** ** Puts *)
  Definition val (u : text) (acts : list (action diag)) : list diag := flat_map (fun a => match a with Put u' ds => if eqb_bytes u' u then ds else [] | _ => [] end) acts.
  Lemma puts_val n l u : Permutation (val u (puts n l)) (at_url to_url u l).
  Proof using Files Distinct.
    unfold val, DiagModel.puts. rewrite flat_map_concat_map, map_map, <- flat_map_concat_map. rewrite (flat_map_perm _ _ _ (Files n (by_label l))). unfold by_label.
    assert (Q : forall m, Permutation (flat_map (fun x => if eqb_bytes (to_url (fst x)) u then snd x else []) (fold_left (fun m (x : text * diag) => extend (fst x) [snd x] m) l m))
      (flat_map (fun x => if eqb_bytes (to_url (fst x)) u then snd x else []) m ++ at_url to_url u l)).
    { induction l as [|[f x] l IH]; intros m; cbn [fold_left].
      - unfold at_url. cbn [filter map]. now rewrite app_nil_r.
      - rewrite IH. unfold at_url. cbn [filter fst snd]. clear IH.
        assert (X : Permutation (flat_map (fun x => if eqb_bytes (to_url (fst x)) u then snd x else []) (extend f [x] m))
          (flat_map (fun x => if eqb_bytes (to_url (fst x)) u then snd x else []) m ++ (if eqb_bytes (to_url f) u then [x] else []))).
        { induction m as [|[k' l'] m IH]; cbn [extend flat_map fst snd]; [now rewrite app_nil_r|]. destruct (eqb_bytes k' f) eqn:E; cbn [flat_map fst snd].
          - apply eqb_bytes_spec in E as ->. destruct (eqb_bytes (to_url f) u); [|now rewrite app_nil_r]. rewrite <- !app_assoc. apply Permutation_app_head, Permutation_app_comm.
          - rewrite IH, app_assoc. reflexivity. }
        rewrite X, <- app_assoc. apply Permutation_app_head. destruct (eqb_bytes (to_url f) u); reflexivity. }
    rewrite Q. reflexivity.
  Qed.
  Definition url_of (a : action diag) : text := match a with Put u _ => u | _ => [] end.
  Lemma puts_are n l : Forall (fun a => exists u ds, a = Put u ds) (puts n l).
  Proof. unfold DiagModel.puts. apply Forall_forall. intros a I. apply in_map_iff in I as (x & <- & _). eauto. Qed.
  Lemma puts_once n l : NoDup (map url_of (puts n l)).
  Proof using Files Distinct.
    unfold DiagModel.puts. rewrite map_map. cbn [url_of]. rewrite <- (map_map fst to_url).
    assert (ND : NoDup (map fst (order_files n (by_label l)))).
    { apply (Permutation_NoDup (l := map fst (by_label l))); [apply Permutation_map, Permutation_sym, Files|]. unfold by_label. apply (fold_once fst (fun x => [snd x])). constructor. }
    clear - ND Distinct. induction ND as [|x l' NI ND IH]; cbn [map]; constructor; [|exact IH]. intros I. apply in_map_iff in I as (y & E & I). apply Distinct in E. now subst.
  Qed.
  Lemma val_app u a b : val u (a ++ b) = val u a ++ val u b.
  Proof. unfold val. apply flat_map_app. Qed.
  Lemma val_none u acts : Forall (fun a => exists u ds, a = Put u ds) acts -> ~ In u (map url_of acts) -> val u acts = [].
  Proof.
    induction 1 as [|a acts (u' & ds & ->) F IH]; [reflexivity|]. cbn [map url_of In]. intros NI. unfold val. cbn [flat_map]. rewrite (proj2 (eqb_bytes_false u' u)) by tauto. apply IH. tauto.
  Qed.

  (** ** Invariant *)
  Definition fresh (s : state diag) (c : text) : Prop := forall u, Permutation (ent (current (work s)) (scope_of c) u) (at_url to_url u (snd (outcome (files s) c))).
  Definition progress (s : state diag) (c : text) (acts : list (action diag)) : Prop :=
    acts = [Clear; Read] \/
    (acts = [Read] /\ forall u, ent (current (work s)) (scope_of c) u = []) \/
    (exists n done rest, acts = rest ++ [Sync; Cache (fst (outcome (files s) c))] /\ puts n (snd (outcome (files s) c)) = done ++ rest /\
       forall u, ent (current (work s)) (scope_of c) u = val u done) \/
    (acts = [Cache (fst (outcome (files s) c))] /\ fresh s c).
  Definition cached (s : state diag) (c : text) : Prop := get c (cache s) = match fst (outcome (files s) c) with [] => None | l => Some l end.
  Definition shown (s : state diag) : text -> list diag := flush (view s) (List.concat (tasks s)).
  Record inv (s : state diag) : Prop := {
    i_scopes : Forall (fun e => exists c, In c addons /\ fst (fst e) = scope_of c) (current (work s));
    i_jobs : NoDup (map fst (jobs s));
    i_progress : forall c acts, In (c, acts) (jobs s) -> In c addons /\ progress s c acts;
    i_done : forall c, In c addons -> ~ In c (map fst (jobs s)) -> fresh s c /\ cached s c;
    i_keys : NoDup (map fst (cache s)) /\ incl (map fst (cache s)) addons;
    i_last : forall u, ~ In u (last_touched (work s)) -> shown s u = [];
    i_sync : (exists c acts, In (c, acts) (jobs s) /\ forall l, acts <> [Cache l]) \/ forall u, Permutation (shown s u) (all_at (current (work s)) u) }.

  Lemma start_inv d : inv (start d addons).
  Proof using Once.
    constructor; cbn [start files cache work jobs tasks view current last_touched].
    - constructor.
    - rewrite map_map. cbn [start_job fst]. now rewrite map_id.
    - intros c acts I. apply in_map_iff in I as (x & [= <- <-] & I). split; [exact I|]. now left.
    - intros c I NI. destruct NI. rewrite map_map. cbn [start_job fst]. now rewrite map_id.
    - split; [constructor|intros x []].
    - intros u _. reflexivity.
    - destruct addons as [|a l]; [right; intros u; reflexivity|]. left. exists a, [Clear; Read]. split; [now left|discriminate].
  Qed.

  Lemma get_put {A} k (a : A) m k' : get k' (put k a m) = if eqb_bytes k k' then Some a else get k' m.
  Proof.
    unfold get, put. cbn [find fst]. destruct (eqb_bytes k k') eqn:E; [reflexivity|]. induction m as [|[x y] m IH]; [reflexivity|]. cbn [filter find fst]. destruct (eqb_bytes x k) eqn:E'; cbn [negb].
    - apply eqb_bytes_spec in E' as ->. rewrite E. exact IH.
    - cbn [find fst]. destruct (eqb_bytes x k'); [reflexivity|exact IH].
  Qed.
  Lemma get_drop {A} k (m : list (text * A)) k' : get k' (drop_key k m) = if eqb_bytes k k' then None else get k' m.
  Proof.
    unfold get, drop_key. induction m as [|[x y] m IH]; [now destruct (eqb_bytes k k')|]. cbn [filter find fst]. destruct (eqb_bytes x k) eqn:E'; cbn [negb].
    - apply eqb_bytes_spec in E' as ->. destruct (eqb_bytes k k'); exact IH.
    - cbn [find fst]. destruct (eqb_bytes x k') eqn:E; [|exact IH]. apply eqb_bytes_spec in E as ->. now rewrite eqb_bytes_sym, E'.
  Qed.
  Lemma keys_drop {A} k (m : list (text * A)) x : In x (map fst (drop_key k m)) <-> x <> k /\ In x (map fst m).
  Proof.
    unfold drop_key. rewrite !in_map_iff. split.
    - intros (y & Ey & I). apply filter_In in I as [I E]. split; [|eauto]. intros Ex. rewrite Ey, Ex, eqb_bytes_refl in E. discriminate E.
    - intros (Nq & y & Ey & I). exists y. split; [exact Ey|]. apply filter_In. split; [exact I|]. apply negb_true_iff. apply eqb_bytes_false. congruence.
  Qed.
  Lemma once_drop {A} k (m : list (text * A)) : NoDup (map fst m) -> NoDup (map fst (drop_key k m)).
  Proof.
    induction m as [|x m IH]; intros ND; [constructor|]. cbn [map] in ND. inversion ND as [|? ? N1 N2]; subst. unfold drop_key. cbn [filter]. destruct (negb _); [|exact (IH N2)]. cbn [map]. constructor; [|exact (IH N2)].
    intros I. apply N1. assert (Q : In (fst x) (map fst (drop_key k m))) by exact I. apply keys_drop in Q. tauto.
  Qed.

  Definition untouched (s s' : state diag) (c : text) : Prop := forall u, ent (current (work s')) (scope_of c) u = ent (current (work s)) (scope_of c) u.
  Lemma progress_same s s' c acts : files s' = files s -> untouched s s' c -> progress s c acts -> progress s' c acts.
  Proof.
    intros F U. unfold progress, fresh. rewrite F. intros [P|[(P & Q)|[(n & dn & rest & P & Q & R)|(P & Q)]]]; [now left|right; left|right; right; left|right; right; right].
    - split; [exact P|]. intros u. now rewrite U.
    - exists n, dn, rest. split; [exact P|]. split; [exact Q|]. intros u. now rewrite U.
    - split; [exact P|]. intros u. now rewrite U.
  Qed.
  Lemma in_replace {A} (x y : A) a b r : In y (a ++ r ++ b) -> In y r \/ In y (a ++ x :: b).
  Proof. rewrite !in_app_iff. cbn [In]. tauto. Qed.

  (** One action of a check. *)
  Lemma check_inv s i n : inv s -> inv (step (Check i n) s).
  Proof using Entries Urls Files Distinct Once.
    clear Frame matters. intros I. cbn [DiagModel.step]. destruct (nth_error (jobs s) i) as [[c [|a rest]]|] eqn:Nt; try exact I.
    destruct (split_nth i (jobs s) _ Nt) as (j1 & j2 & Ej & Rp). destruct I as [Isc Ijo Ipr Ido (Ik1 & Ik2) Ila Isy].
    assert (Icj : In (c, a :: rest) (jobs s)) by (rewrite Ej; apply in_or_app; right; now left).
    destruct (Ipr c _ Icj) as (Ica & Pc).
    assert (Oth : forall x acts, In (x, acts) (j1 ++ j2) -> x <> c).
    { intros x acts I ->. rewrite Ej, map_app in Ijo. cbn [map fst] in Ijo. apply NoDup_remove_2 in Ijo. apply Ijo. rewrite <- map_app. now apply (in_map fst) in I. }
    assert (Old : forall x acts, In (x, acts) (j1 ++ j2) -> In (x, acts) (jobs s)).
    { intros x acts I. rewrite Ej. apply in_app_or in I as [I|I]; apply in_or_app; [now left|right; now right]. }
    (* the job goes on *)
    assert (Go : forall acts' w' ts',
      (forall x, x <> c -> forall u, ent (current w') (scope_of x) u = ent (current (work s)) (scope_of x) u) ->
      Forall (fun e => exists c, In c addons /\ fst (fst e) = scope_of c) (current w') ->
      acts' <> [] -> progress (State (files s) (cache s) w' (j1 ++ [(c, acts')] ++ j2) ts' (view s)) c acts' ->
      (forall u, ~ In u (last_touched w') -> flush (view s) (List.concat ts') u = []) ->
      ((forall l, acts' <> [Cache l]) \/ forall u, Permutation (flush (view s) (List.concat ts') u) (all_at (current w') u)) ->
      inv (State (files s) (cache s) w' (j1 ++ [(c, acts')] ++ j2) ts' (view s))).
    { intros acts' w' ts' Un Sc NE Pr La Sy. constructor; cbn [files cache work jobs tasks view].
      - exact Sc.
      - rewrite Ej, map_app in Ijo. rewrite map_app. exact Ijo.
      - intros x acts I. rewrite app_assoc in I. assert (X : (x, acts) = (c, acts') \/ In (x, acts) (j1 ++ j2)) by (rewrite !in_app_iff in *; cbn [In] in I; intuition).
        destruct X as [[= -> ->]|X]; [split; [exact Ica|exact Pr]|]. destruct (Ipr x acts (Old _ _ X)) as (A & B). split; [exact A|].
        apply (progress_same s); [reflexivity| |exact B]. intros u. cbn [work]. apply Un. exact (Oth _ _ X).
      - intros x Ia NI. assert (x <> c) by (intros ->; apply NI; rewrite map_app; apply in_or_app; right; now left).
        assert (NI' : ~ In x (map fst (jobs s))) by (intros Q; apply NI; rewrite Ej in Q; rewrite map_app in *; exact Q).
        destruct (Ido x Ia NI') as (A & B). split; [|exact B]. intros u. cbn [work files]. rewrite Un by assumption. apply A.
      - auto.
      - exact La.
      - destruct Sy as [Sy|Sy]; [left; exists c, acts'; split; [apply in_or_app; right; now left|exact Sy]|now right]. }
    unfold perform. destruct Pc as [P|[(P & Q)|[(n0 & dn & rs & P & Q & R)|(P & Q)]]].
    - injection P as -> ->. rewrite Rp; unfold with_jobs; cbn [files cache work jobs tasks view]. apply Go.
      + intros x Nx u. rewrite ent_clear, scope_neq; [reflexivity|congruence].
      + cbn [clear_current current]. apply Forall_forall. intros e I. apply filter_In in I as [I _]. rewrite Forall_forall in Isc. now apply Isc.
      + discriminate.
      + right. left. split; [reflexivity|]. intros u. cbn [work]. now rewrite ent_clear, eqb_bytes_refl.
      + exact Ila.
      + left. discriminate.
    - injection P as -> ->. destruct (outcome (files s) c) as [srcs found] eqn:Oc. rewrite Rp; unfold with_jobs; cbn [files cache work jobs tasks view].
      assert (NE : puts n found ++ [Sync; Cache srcs] <> []) by (intros E; apply app_eq_nil in E as [_ E]; discriminate E).
      destruct (puts n found ++ [Sync; Cache srcs]) as [|a0 l0] eqn:El; [congruence|]. rewrite <- El. apply Go; auto.
      + rewrite El. discriminate.
      + right. right. left. exists n, [], (puts n found). cbn [files work]. rewrite Oc. cbn [fst snd app]. split; [reflexivity|]. split; [reflexivity|exact Q].
      + left. intros l E. assert (L : length (puts n found ++ [Sync; Cache srcs]) = 1%nat) by now rewrite E. rewrite app_length in L. cbn [length] in L. lia.
    - destruct rs as [|r rs]; cbn [app] in P.
      + injection P as -> ->. cbn [with_jobs]. destruct (sync order_entries order_urls order_files n (work s)) as [w' ms] eqn:Sy. rewrite Rp; unfold with_jobs; cbn [files cache work jobs tasks view].
        unfold sync in Sy. injection Sy as <- <-. rewrite app_nil_r in Q.
        set (fl := by_file (order_entries n (current (work s)))).
        assert (NDf : NoDup (map fst fl)) by (unfold fl, by_file; apply (fold_once (fun e => snd (fst e)) (fun e => snd e)); constructor).
        assert (Pk : forall u, Permutation (pick u fl) (all_at (current (work s)) u)).
        { intros u. unfold fl, by_file. rewrite (fold_pick (fun e => snd (fst e)) (fun e => snd e) u (order_entries n (current (work s))) []). cbn [pick flat_map app]. unfold all_at. apply flat_map_perm, Entries. }
        assert (NDo : NoDup (map fst (order_files n fl))) by (apply (Permutation_NoDup (l := map fst fl)); [apply Permutation_map, Permutation_sym, Files|exact NDf]).
        assert (Kf : forall u, In u (map fst (order_files n fl)) <-> In u (map fst fl)).
        { intros u. split; apply Permutation_in; [apply Permutation_map, Files|apply Permutation_map, Permutation_sym, Files]. }
        assert (Fl : forall u, flush (view s) (List.concat (tasks s ++ [map (fun u => (u, [])) (order_urls n (last_touched (work s))) ++ order_files n fl])) u = if in_dec (list_eq_dec N.eq_dec) u (map fst fl) then pick u (order_files n fl) else []).
        { intros u. rewrite concat_app. cbn [List.concat]. rewrite app_nil_r, !flush_app, (flush_files _ NDo), flush_clears.
          destruct (in_dec _ u (map fst (order_files n fl))) as [I1|I1]; destruct (in_dec _ u (map fst fl)) as [I2|I2]; try reflexivity; try (exfalso; rewrite Kf in I1; contradiction).
          destruct (in_dec _ u (order_urls n _)) as [I3|I3]; [reflexivity|]. apply Ila. intros I4. apply I3. exact (Permutation_in _ (Permutation_sym (Urls n _)) I4). }
        apply Go.
        * intros x Nx u. reflexivity.
        * exact Isc.
        * discriminate.
        * right. right. right. split; [reflexivity|]. intros u. cbn [work files current]. rewrite R, <- Q. apply puts_val.
        * cbn [last_touched]. intros u NI. fold fl in NI. rewrite Fl. destruct (in_dec _ u (map fst fl)); [contradiction|reflexivity].
        * right. intros u. cbn [current]. rewrite Fl. destruct (in_dec _ u (map fst fl)) as [I2|I2].
          -- rewrite (pick_perm u _ _ (Files n fl)). apply Pk.
          -- rewrite <- Pk, pick_none by exact I2. constructor.
      + injection P as -> ->. pose proof (puts_are n0 (snd (outcome (files s) c))) as PA. rewrite Q in PA. apply Forall_app in PA as (PA1 & PA2). inversion PA2 as [|? ? (u0 & ds0 & ->) PA3]; subst.
        rewrite Rp; unfold with_jobs; cbn [files cache work jobs tasks view].
        assert (NE : rs ++ [Sync; Cache (fst (outcome (files s) c))] <> []) by (intros E; apply app_eq_nil in E as [_ E]; discriminate E).
        destruct (rs ++ [Sync; Cache (fst (outcome (files s) c))]) as [|a0 l0] eqn:El; [congruence|]. rewrite <- El.
        pose proof (puts_once n0 (snd (outcome (files s) c))) as PO. rewrite Q, map_app in PO. cbn [map url_of] in PO. apply NoDup_remove_2 in PO.
        apply Go.
        * intros x Nx u. rewrite ent_set, scope_neq; [reflexivity|congruence].
        * cbn [set_current current]. constructor; [exists c; auto|]. apply Forall_forall. intros e I. apply filter_In in I as [I _]. rewrite Forall_forall in Isc. now apply Isc.
        * rewrite El. discriminate.
        * right. right. left. exists n0, (dn ++ [Put u0 ds0]), rs. cbn [files work]. split; [reflexivity|]. split; [rewrite Q, <- app_assoc; reflexivity|]. intros u. rewrite ent_set, eqb_bytes_refl, val_app. cbn [andb].
          unfold val at 2. cbn [flat_map]. rewrite app_nil_r. destruct (eqb_bytes u0 u) eqn:Eu.
          -- apply eqb_bytes_spec in Eu as ->. rewrite val_none; [reflexivity|exact PA1|]. intros I. apply PO. apply in_or_app. now left.
          -- rewrite app_nil_r. apply R.
        * exact Ila.
        * left. intros l E. assert (L : length (rs ++ [Sync; Cache (fst (outcome (files s) c))]) = 1%nat) by now rewrite E. rewrite app_length in L. cbn [length] in L. lia.
    - injection P as -> ->. rewrite Rp; unfold with_jobs; cbn [files cache work jobs tasks view]. cbn [app].
      set (ca := match fst (outcome (files s) c) with [] => drop_key c (cache s) | _ :: _ => put c (fst (outcome (files s) c)) (cache s) end).
      assert (Gc : forall x, get x ca = if eqb_bytes c x then match fst (outcome (files s) c) with [] => None | l => Some l end else get x (cache s)).
      { intros x. unfold ca. destruct (fst (outcome (files s) c)); [apply get_drop|apply get_put]. }
      constructor; cbn [files cache work jobs tasks view].
      + exact Isc.
      + rewrite Ej, map_app in Ijo. cbn [map fst] in Ijo. apply NoDup_remove_1 in Ijo. now rewrite map_app.
      + intros x acts I. destruct (Ipr x acts (Old _ _ I)) as (A & B). split; [exact A|]. apply (progress_same s); [reflexivity| |exact B]. intros u. reflexivity.
      + intros x Ia NI. destruct (list_eq_dec N.eq_dec x c) as [->|Nx].
        * split; [exact Q|]. unfold cached. cbn [cache files]. fold ca. rewrite Gc, eqb_bytes_refl. reflexivity.
        * assert (NI' : ~ In x (map fst (jobs s))). { intros I. rewrite Ej, map_app in I. cbn [map fst] in I. apply NI. rewrite map_app. apply in_app_or in I as [I|[I|I]]; apply in_or_app; [now left|congruence|now right]. }
          destruct (Ido x Ia NI') as (A & B). split; [exact A|]. unfold cached in *. cbn [cache files]. fold ca. rewrite Gc. rewrite (proj2 (eqb_bytes_false c x)) by congruence. exact B.
      + fold ca. unfold ca. destruct (fst (outcome (files s) c)) as [|x0 l0].
        * split; [now apply once_drop|]. intros x I. apply keys_drop in I as [_ I]. now apply Ik2.
        * split.
          -- unfold put. cbn [map fst]. constructor; [|now apply once_drop]. intros I. assert (X : In c (map fst (drop_key c (cache s)))) by exact I. apply keys_drop in X. tauto.
          -- unfold put. cbn [map fst]. intros x [<-|I]; [exact Ica|]. assert (X : In x (map fst (drop_key c (cache s)))) by exact I. apply keys_drop in X as [_ X]. now apply Ik2.
      + exact Ila.
      + destruct Isy as [(x & acts & I & Nc)|Sy]; [left|now right]. exists x, acts. split; [|exact Nc]. rewrite Ej in I. apply in_app_or in I as [I|[[= <- <-]|I]]; [apply in_or_app; now left|now destruct (Nc (fst (outcome (files s) c)))|apply in_or_app; now right].
  Qed.

  Lemma publish_inv s : inv s -> inv (step (Publish 0) s).
  Proof using.
    clear Frame matters. intros I. cbn [DiagModel.step]. destruct (tasks s) as [|[|[u ds] ms] ts] eqn:Et; cbn [nth_error]; [exact I| |].
    - destruct I as [Isc Ijo Ipr Ido Ik Ila Isy]. unfold shown in *. rewrite Et in *. constructor; auto.
    - destruct I as [Isc Ijo Ipr Ido Ik Ila Isy]. unfold shown in *. rewrite Et in *. constructor; auto.
  Qed.

  Lemma saved_inv s d f : inv s -> jobs s = [] ->
    (forall c, In c addons -> ~ In f (fst (outcome (files s) c)) -> outcome d c = outcome (files s) c) ->
    inv (step (Saved f) (State d (cache s) (work s) (jobs s) (tasks s) (view s))).
  Proof using Once.
    clear Frame matters. intros [Isc Ijo Ipr Ido (Ik1 & Ik2) Ila Isy] Nj Fr. cbn [DiagModel.step]. unfold with_jobs. cbn [files cache work jobs tasks view]. rewrite Nj. cbn [app].
    rewrite Nj in *. destruct Isy as [(x & acts & [] & _)|Sy].
    assert (Fk : forall p (l : list (text * list text)), NoDup (map fst l) -> NoDup (map fst (filter p l))).
    { clear. intros p l. induction l as [|x l IHl]; intros ND; [constructor|]. cbn [map] in ND. inversion ND as [|? ? N1 N2]; subst. cbn [filter]. destruct (p x); [|exact (IHl N2)]. cbn [map]. constructor; [|exact (IHl N2)]. intros I. apply N1. apply in_map_iff in I as (y & E & I). apply filter_In in I as [I _]. rewrite <- E. now apply in_map. }
    constructor; cbn [files cache work jobs tasks view].
    - exact Isc.
    - rewrite map_map. cbn [start_job fst]. now apply Fk.
    - intros c acts I. apply in_map_iff in I as (y & [= <- <-] & I). apply filter_In in I as [I _]. split; [apply Ik2; now apply in_map|now left].
    - intros c Ia NI. rewrite map_map in NI. cbn [start_job fst] in NI. destruct (Ido c Ia (fun x => x)) as (A & B).
      assert (NF : ~ In f (fst (outcome (files s) c))).
      { intros F. apply NI. unfold cached in B. destruct (fst (outcome (files s) c)) as [|x0 l0] eqn:El; [destruct F|]. unfold get in B. destruct (find _ (cache s)) as [y|] eqn:Fi; [|discriminate B]. injection B as B.
        apply find_some in Fi as [Iy Ey]. apply eqb_bytes_spec in Ey. rewrite <- Ey. apply in_map. apply filter_In. split; [exact Iy|]. rewrite B. apply existsb_exists. exists f. split; [exact F|apply eqb_bytes_refl]. }
      unfold fresh, cached in *. cbn [work files cache]. rewrite (Fr c Ia NF). auto.
    - auto.
    - exact Ila.
    - right. exact Sy.
  Qed.

  Lemma orderly_inv l : forall s, inv s -> orderly step outcome addons matters l s -> inv (run l s).
  Proof using Entries Urls Files Distinct Once Frame.
    assert (Q : forall k l, (length l <= k)%nat -> forall s, inv s -> orderly step outcome addons matters l s -> inv (run l s)).
    { clear l. induction k as [|k IH]; intros l L s I O.
      - destruct l; [exact I|cbn [length] in L; lia].
      - destruct l as [|t l]; [exact I|]. cbn [length] in L. cbn [DiagModel.run fold_left]. destruct t as [f x|f|i n|i]; cbn [orderly] in O.
        + destruct O as (Nj & Li & O). destruct l as [|[?|g|?|?] l]; try contradiction. destruct O as (-> & O). cbn [fold_left]. cbn [length] in L. apply IH; [lia| |exact O].
          apply saved_inv; [exact I|exact Nj|]. intros c Ia NF. apply Frame. intros M. apply NF. now apply Li.
        + destruct O as (Nj & O). apply IH; [lia| |exact O]. destruct s as [d ca w j t v]. apply (saved_inv (State d ca w j t v) d f I Nj). reflexivity.
        + apply IH; [lia| |exact O]. now apply check_inv.
        + destruct O as (-> & O). apply IH; [lia| |exact O]. now apply publish_inv. }
    intros s. apply (Q (length l)). lia.
  Qed.
  Lemma idle_right s : inv s -> idle s -> forall u, Permutation (view s u) (expected outcome to_url addons (files s) u).
  Proof using Once.
    clear Frame matters. intros [Isc Ijo Ipr Ido Ik Ila Isy] (Nj & Nt) u. destruct Isy as [(x & acts & I & _)|Sy]; [rewrite Nj in I; destruct I|].
    specialize (Sy u). unfold shown in Sy. rewrite Nt in Sy. cbn [List.concat flush fold_left] in Sy. rewrite Sy, (all_by_scope _ u Isc). unfold expected. clear Sy.
    assert (Q : forall l, incl l addons -> Permutation (flat_map (fun c => ent (current (work s)) (scope_of c) u) l) (flat_map (fun c => at_url to_url u (snd (outcome (files s) c))) l)).
    { induction l as [|c l IH]; intros Il; [reflexivity|]. cbn [flat_map]. apply Permutation_app; [|apply IH; intros y Iy; apply Il; now right]. apply Ido; [apply Il; now left|]. rewrite Nj. intros []. }
    apply Q. intros y Iy. exact Iy.
  Qed.
End Server.
