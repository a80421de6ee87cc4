(** Lemmas for C81. *)
From Coq Require Import String.
From Verif Require Import Base.Tactics Base.Bytes Base.Sort Base.Ascii Base.Text Workspace.PathModel.
From Verif Require Import Bin.PackModel Bin.ConvertModel Bin.ConvertSpec.
From Verif Require Bin.BinarizeModel Bin.PackSpec Bin.BinarizeSpec Bin.BinarizeProofs Workspace.PathProps.
Local Open Scope N_scope.
Local Open Scope list_scope.

(** ** Writes *)
Definition agree (a b : store) : Prop := forall c, a c = b c.
Lemma perform_agree a b w : agree a b -> agree (perform a w) (perform b w).
Proof. intros H c. destruct w as [d x|d x]; cbn; unfold set; destruct (cell_dec d c); auto. now rewrite H. Qed.
Lemma performs_agree ws : forall a b, agree a b -> agree (fold_left perform ws a) (fold_left perform ws b).
Proof. induction ws as [|w ws IH]; intros a b H; cbn; [exact H|]. apply IH. now apply perform_agree. Qed.
Lemma perform_other st w c : target w <> c -> perform st w c = st c.
Proof. destruct w as [d x|d x]; cbn; unfold set; destruct (cell_dec d c); congruence. Qed.
Lemma performs_other ws : forall st c, ~ In c (map target ws) -> fold_left perform ws st c = st c.
Proof.
  induction ws as [|w ws IH]; intros st c H; cbn; [reflexivity|]. cbn in H. rewrite IH by tauto. apply perform_other. tauto.
Qed.
Lemma perform_swap st w v : target w <> target v -> agree (perform (perform st w) v) (perform (perform st v) w).
Proof.
  intros H c. destruct (cell_dec (target v) c) as [<-|NV].
  - rewrite (perform_other _ w) by exact H. destruct v as [d x|d x]; cbn in *; unfold set; destruct (cell_dec d d); try congruence.
    rewrite perform_other by exact H. reflexivity.
  - rewrite (perform_other _ v) by exact NV. destruct (cell_dec (target w) c) as [<-|NW].
    + destruct w as [d x|d x]; cbn in *; unfold set; destruct (cell_dec d d); try congruence. rewrite perform_other by congruence. reflexivity.
    + now rewrite !perform_other.
Qed.
(** A write may be put off until after writes to other cells. *)
Lemma perform_late ws w : ~ In (target w) (map target ws) -> forall st, agree (fold_left perform ws (perform st w)) (perform (fold_left perform ws st) w).
Proof.
  induction ws as [|v ws IH]; intros H st; cbn; [now intros c|]. cbn in H. intro c.
  rewrite (performs_agree ws _ (perform (perform st v) w)).
  - apply IH. tauto.
  - apply perform_swap. intro K. apply H. left. now rewrite K.
Qed.

Section Jobs.
  Context {report error : Type}.
  Notation job := (job report error).
  Notation alone := (@alone report error).
  Lemma alone_fun st j ps ws x : alone st j ps ws x -> forall ps' ws' x', alone st j ps' ws' x' -> ps = ps' /\ ws = ws' /\ x = x'.
  Proof.
    induction 1 as [ws x|p k ps ws x _ IH]; intros ps' ws' x' H; inversion H as [|? ? ? ? ? H']; subst; [auto|].
    destruct (IH _ _ _ H') as (-> & -> & ->). auto.
  Qed.
  Lemma alone_total st j : exists ps ws x, alone st j ps ws x.
  Proof.
    induction j as [p k IH|ws x]; [|exists [], ws, x; constructor].
    destruct (IH (st (Disk p))) as (ps & ws & x & H). exists (p :: ps), ws, x. now constructor.
  Qed.
  Lemma alone_same a b j ps ws x : alone a j ps ws x -> (forall p, In p ps -> b (Disk p) = a (Disk p)) -> alone b j ps ws x.
  Proof.
    induction 1 as [ws x|p k ps ws x _ IH]; intro E; [constructor|]. constructor. rewrite E by now left. apply IH. intros q I. apply E. now right.
  Qed.
  Lemma writes_in st j ps ws x w : alone st j ps ws x -> In w ws -> writes st j (target w).
  Proof. intros A I. exists ps, ws, x. split; [exact A|now apply in_map]. Qed.

  (** What a job at a given point has done ([done]) when it set out from [st]. *)
  Definition status (st : store) (x : job * progress report error) (done : list write) : Prop :=
    match snd x with
    | Waiting | Abandoned => done = []
    | Reading j => done = [] /\ exists ps ps' ws e, alone st (fst x) ps ws e /\ alone st j ps' ws e /\ incl ps' ps
    | Writing ws e => exists ps, alone st (fst x) ps (done ++ ws) e
    | Finished e => exists ps, alone st (fst x) ps done e
    end.
  Lemma status_writes st x done w : status st x done -> In w done -> writes st (fst x) (target w).
  Proof.
    unfold status. destruct (snd x); intros S I.
    - subst. destruct I.
    - destruct S as [-> _]. destruct I.
    - destruct S as (ps & A). apply (writes_in _ _ _ _ _ _ A). apply in_app_iff. now left.
    - destruct S as (ps & A). apply (writes_in _ _ _ _ _ _ A I).
    - subst. destruct I.
  Qed.
  Definition invariant (st : store) (s : store * list (job * progress report error)) (ds : list (list write)) : Prop :=
    Forall2 (status st) (snd s) ds /\ agree (fst s) (fold_left perform (concat ds) st) /\
    (In Abandoned (map snd (snd s)) -> exists j e, In (j, Finished (inr e)) (snd s)).
  Notation all_apart st l := (ForallOrdPairs (apart st) (map fst l)).

  Lemma apart_sym st j1 j2 : apart (report := report) (error := error) st j1 j2 -> apart st j2 j1.
  Proof. intros (A & B & C). repeat split; eauto. Qed.
  Lemma apart_split st (l r : list job) j : ForallOrdPairs (apart st) (l ++ j :: r) -> (forall j', In j' (l ++ r) -> apart st j j').
  Proof.
    induction l as [|x l IH]; cbn; intros H j' I.
    - inversion H as [|? ? F _]; subst. rewrite Forall_forall in F. auto.
    - inversion H as [|? ? F H']; subst. destruct I as [<-|I]; [|now apply IH].
      apply apart_sym. rewrite Forall_forall in F. apply F. apply in_app_iff. right. now left.
  Qed.
  (** The cells the other jobs have written so far are apart from those of [j]. *)
  Lemma others st (l : list (job * progress report error)) ds c : Forall2 (status st) l ds -> In c (map target (concat ds)) -> exists x, In x l /\ writes st (fst x) c.
  Proof.
    induction 1 as [|x d l ds S _ IH]; cbn; [intros []|]. rewrite map_app, in_app_iff. intros [I|I].
    - apply in_map_iff in I as (w & <- & I). exists x. split; [now left|]. eapply status_writes; eauto.
    - destruct (IH I) as (y & Y & W). exists y. split; [now right|exact W].
  Qed.
  Lemma in_keep {A} (l r : list A) a b x : In x (l ++ a :: r) -> x <> a -> In x (l ++ b :: r).
  Proof. rewrite !in_app_iff. cbn. intros [H|[H|H]] K; auto. congruence. Qed.

  Lemma step_keeps st s s' ds : all_apart st (snd s) -> invariant st s ds -> step s s' -> map fst (snd s') = map fst (snd s) /\ exists ds', invariant st s' ds'.
  Proof.
    intros AP (F & AG & AB) ST. destruct ST as [cur cur' l r j p p' ACT|cur l r j FL]; cbn [fst snd] in *.
    - split; [now rewrite !map_app|]. apply Forall2_app_inv_l in F as (d1 & d2' & F1 & F2 & ->).
      inversion F2 as [|? d ? d2 S F2']; subst. rewrite map_app in AP. cbn in AP. pose proof (apart_split _ _ _ _ AP) as AJ. rewrite <- map_app in AJ.
      assert (OT : forall c, In c (map target (concat d1 ++ concat d2)) -> exists x, In x (l ++ r) /\ writes st (fst x) c).
      { intros c I. apply (others st (l ++ r) (d1 ++ d2)); [now apply Forall2_app|]. now rewrite concat_app. }
      assert (AB' : In Abandoned (map snd (l ++ (j, p') :: r)) -> p' <> Abandoned -> (forall e, p <> Finished e) -> exists j0 e, In (j0, Finished (inr e)) (l ++ (j, p') :: r)).
      { intros I NA NF. rewrite map_app, in_app_iff in I. cbn in I. destruct AB as (j0 & e & J).
        - rewrite map_app, in_app_iff. cbn. destruct I as [I|[I|I]]; auto. congruence.
        - exists j0, e. apply (in_keep _ _ _ _ _ J). intros K. injection K as -> <-. now apply (NF (inr e)). }
      inversion ACT; subst.
      + exists (d1 ++ d :: d2). repeat split; [|exact AG|intro I; apply AB'; auto; discriminate].
        apply Forall2_app; [exact F1|]. constructor; [|exact F2']. cbn in *. split; [exact S|].
        destruct (alone_total st j) as (ps & ws & x & A). exists ps, ps, ws, x. split; [exact A|split; [exact A|apply incl_refl]].
      + exists (d1 ++ d :: d2). repeat split; [|exact AG|intro I; apply AB'; auto; discriminate].
        apply Forall2_app; [exact F1|]. constructor; [|exact F2']. cbn in *. destruct S as (-> & ps & ps' & ws & x & A & B & IN). split; [reflexivity|].
        inversion B as [|? ? ps2 ? ? B']; subst. assert (E : cur' (Disk p0) = st (Disk p0)).
        { rewrite AG, concat_app. cbn. apply performs_other. intro I. destruct (OT _ I) as (y & Y & W).
          destruct (AJ (fst y) (in_map _ _ _ Y)) as (_ & R & _). apply (R p0); [|exact W]. exists ps, ws, x. split; [exact A|]. apply IN. now left. }
        rewrite E. exists ps, ps2, ws, x. split; [exact A|]. split; [exact B'|]. intros q Q. apply IN. now right.
      + exists (d1 ++ d :: d2). repeat split; [|exact AG|intro I; apply AB'; auto; discriminate].
        apply Forall2_app; [exact F1|]. constructor; [|exact F2']. cbn in *. destruct S as (-> & ps & ps' & ws' & x' & A & B & IN).
        inversion B; subst. exists ps. exact A.
      + exists (d1 ++ (d ++ [w]) :: d2). repeat split; [| |intro I; apply AB'; auto; discriminate].
        * apply Forall2_app; [exact F1|]. constructor; [|exact F2']. cbn in *. destruct S as (ps & A). exists ps. now rewrite <- app_assoc.
        * cbn [fst]. assert (E : concat (d1 ++ (d ++ [w]) :: d2) = (concat d1 ++ d) ++ w :: concat d2) by (rewrite concat_app; cbn; now rewrite <- !app_assoc).
          rewrite E, fold_left_app. cbn [fold_left]. intro c. rewrite perform_late.
          -- rewrite <- fold_left_app. apply perform_agree. intro c'. rewrite AG, concat_app. cbn. now rewrite app_assoc.
          -- intro I. destruct (OT (target w)) as (y & Y & W); [rewrite map_app, in_app_iff; now right|].
             destruct (AJ (fst y) (in_map _ _ _ Y)) as (R & _). apply (R (target w)); [|exact W]. cbn in S. destruct S as (ps & A).
             apply (writes_in _ _ _ _ _ _ A). apply in_app_iff. right. now left.
      + exists (d1 ++ d :: d2). repeat split; [|exact AG|intro I; apply AB'; auto; discriminate].
        apply Forall2_app; [exact F1|]. constructor; [|exact F2']. cbn in *. destruct S as (ps & A). exists ps. now rewrite app_nil_r in A.
    - split; [now rewrite !map_app|]. exists ds. repeat split; [|exact AG|].
      + apply Forall2_app_inv_l in F as (d1 & d2' & F1 & F2 & ->). inversion F2 as [|? d ? d2 S F2']; subst. apply Forall2_app; [exact F1|]. now constructor.
      + intros _. destruct FL as (j' & e & I). exists j', e. apply in_app_iff in I as [I|I]; apply in_app_iff; [now left|right; now right].
  Qed.
  Lemma run_keeps st s s' : run s s' -> forall ds, all_apart st (snd s) -> invariant st s ds -> map fst (snd s') = map fst (snd s) /\ exists ds', invariant st s' ds'.
  Proof.
    induction 1 as [s|s s1 s2 ST _ IH]; intros ds AP IV; [eauto|]. destruct (step_keeps _ _ _ _ AP IV ST) as (E & ds1 & IV1).
    destruct (IH ds1) as (E2 & IV2); [now rewrite E|exact IV1|]. split; [congruence|exact IV2].
  Qed.
  Lemma begin_invariant st js : invariant st (st, begin js) (map (fun _ => []) js).
  Proof.
    split; [|split].
    - cbn. induction js; cbn; constructor; [reflexivity|assumption].
    - intro c. cbn. replace (concat (map (fun _ : job => []) js)) with (@nil write); [reflexivity|]. now induction js.
    - cbn. unfold begin. rewrite map_map. cbn. intro I. apply in_map_iff in I as (j & K & _). discriminate K.
  Qed.
  Lemma begin_fst (js : list job) : map fst (begin js) = js.
  Proof. unfold begin. rewrite map_map. apply map_id. Qed.

  (** ** One after the other *)
  Lemma in_turn_alone st js st' rs : ForallOrdPairs (apart st) js -> forall cur, (forall j p, In j js -> reads st j p -> cur (Disk p) = st (Disk p)) ->
    in_turn cur js st' rs -> exists wss, agree st' (fold_left perform (concat wss) cur) /\ Forall2 (fun x ws => exists ps, alone st (fst x) ps ws (inl (snd x))) (combine js rs) wss /\ length rs = length js.
  Proof.
    intros AP cur SAME T. revert AP SAME. induction T as [cur|cur j js ps ws r st' rs A _ IH]; intros AP SAME.
    - exists []. repeat split. constructor.
    - inversion AP as [|? ? FA AP']; subst. destruct (alone_total st j) as (ps0 & ws0 & x0 & A0).
      assert (A1 : alone cur j ps0 ws0 x0). { apply (alone_same st); [exact A0|]. intros p I. apply (SAME j); [now left|]. exists ps0, ws0, x0. auto. }
      destruct (alone_fun _ _ _ _ _ A1 _ _ _ A) as (-> & -> & ->).
      destruct (IH AP') as (wss & E & F & L).
      + intros j' p I R. rewrite performs_other; [now apply (SAME j'); [right|]|]. intro K. rewrite Forall_forall in FA. destruct (FA j' I) as (_ & _ & C).
        apply (C p R). exists ps, ws, (inl r). auto.
      + exists (ws :: wss). cbn. rewrite fold_left_app. repeat split; [exact E| |now rewrite L]. constructor; [|exact F]. eauto.
  Qed.
  Lemma alone_in_turn st : forall js : list job, ForallOrdPairs (apart st) js -> (forall j, In j js -> exists r, ends st j (inl r)) ->
    forall cur, (forall j p, In j js -> reads st j p -> cur (Disk p) = st (Disk p)) -> exists st' rs, in_turn cur js st' rs.
  Proof.
    induction js as [|j js IH]; intros AP OK cur SAME; [exists cur, []; constructor|]. inversion AP as [|? ? FA AP']; subst.
    destruct (OK j) as (r & ps & ws & A); [now left|]. assert (A1 : alone cur j ps ws (inl r)).
    { apply (alone_same st); [exact A|]. intros p I. apply (SAME j); [now left|]. exists ps, ws, (inl r). auto. }
    destruct (IH AP') with (cur := fold_left perform ws cur) as (st' & rs & T).
    - intros j' I. apply OK. now right.
    - intros j' p I R. rewrite performs_other; [now apply (SAME j'); [right|]|]. intro K. rewrite Forall_forall in FA. destruct (FA j' I) as (_ & _ & C).
      apply (C p R). exists ps, ws, (inl r). auto.
    - exists st', (r :: rs). econstructor; eauto.
  Qed.

  (** ** Every schedule comes to an end *)
  Inductive down : progress report error -> progress report error -> Prop :=
  | down_start j : down (Reading j) Waiting
  | down_leave : down Abandoned Waiting
  | down_read p k x : down (Reading (k x)) (Reading (Read p k))
  | down_ready ws x : down (Writing ws x) (Reading (Over ws x))
  | down_write w ws x : down (Writing ws x) (Writing (w :: ws) x)
  | down_end x : down (Finished x) (Writing [] x).
  Lemma down_wf : forall p, Acc down p.
  Proof.
    assert (F : forall x, Acc down (Finished x)) by (intro x; constructor; intros y H; inversion H).
    assert (B : Acc down Abandoned) by (constructor; intros y H; inversion H).
    assert (W : forall ws x, Acc down (Writing ws x)). { induction ws as [|w ws IH]; intro x; constructor; intros y H; inversion H; subst; auto. }
    assert (R : forall j, Acc down (Reading j)). { induction j as [p k IH|ws x]; constructor; intros y H; inversion H; subst; auto. }
    intros [|j|ws x|x|]; auto. constructor. intros y H. inversion H; subst; auto.
  Qed.
  Inductive downs : list (job * progress report error) -> list (job * progress report error) -> Prop :=
  | downs_at l r j s s' : down s' s -> downs (l ++ (j, s') :: r) (l ++ (j, s) :: r).
  Lemma downs_cons x y l l' : downs (y :: l') (x :: l) -> (l' = l /\ fst x = fst y /\ down (snd y) (snd x)) \/ (y = x /\ downs l' l).
  Proof.
    intro H. inversion H as [l0 r j s s' D E1 E2]. destruct l0 as [|z l0]; cbn in *; injection E1 as <- <-; injection E2 as <- <-; [left; auto|right]. split; [reflexivity|]. now constructor.
  Qed.
  Lemma downs_wf : forall l, Acc downs l.
  Proof.
    induction l as [|(j, s) l IH].
    - constructor. intros y H. inversion H. destruct l; discriminate.
    - revert s. assert (G : forall s, Acc down s -> forall l, Acc downs l -> Acc downs ((j, s) :: l)).
      { intros s S. induction S as [s _ IHS]. intros l0 L. induction L as [l0 L0 IHL]. constructor. intros y H. destruct y as [|y l'].
        - inversion H. destruct l1; discriminate.
        - destruct (downs_cons _ _ _ _ H) as [(-> & E & D)|(-> & D)]; [|now apply IHL]. destruct y as (j', s'). cbn in *. subst j'. apply IHS; [exact D|]. now constructor. }
      intro s. apply G; [apply down_wf|exact IH].
  Qed.
  Lemma step_downs s s' : step (report := report) (error := error) s s' -> downs (snd s') (snd s).
  Proof.
    intros [st st' l r j p p' A|st l r j _]; cbn; constructor; [|constructor]. inversion A; subst; constructor.
  Qed.
  Lemma steps_wf : forall s, Acc (fun b a => step (report := report) (error := error) a b) s.
  Proof.
    intros (st, l). revert st. induction (downs_wf l) as [l _ IH]. intro st. constructor. intros (st', l') H. apply IH. exact (step_downs _ _ H).
  Qed.
  Lemma step_possible st l : Exists (fun x : job * progress report error => ~ over (snd x)) l -> exists s', step (st, l) s'.
  Proof.
    intro E. apply Exists_exists in E as ((j, s) & I & NO). apply in_split in I as (a & b & ->). cbn in NO. destruct s as [|[p k|ws x]|[|w ws] x|x|]; cbn in NO; try tauto; eexists; apply step_act; constructor.
  Qed.
End Jobs.
