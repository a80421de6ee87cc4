(** Proofs about the analysis of configs, part 3: parents, magazines, and what can be written. *)
From Coq Require Import String.
From Verif Require Import Base.Tactics Base.Bytes Base.Ascii Base.Text Base.Sort Config.RapModel Config.RapTree Config.RapProofs Config.AnalyzeSpec Config.AnalyzeModel Config.AnalyzeWalk Config.AnalyzeProofs.
Local Open Scope N_scope.
Local Open Scope list_scope.

Lemma eqb_bytes_false : forall a b, eqb_bytes a b = false <-> a <> b.
Proof. intros a b. rewrite <- eqb_bytes_spec. destruct (eqb_bytes a b); split; congruence. Qed.
Lemma has_spec : forall k s, has k s = true <-> In k s.
Proof.
  intros k s. unfold has. rewrite existsb_exists. split.
  - intros (x & Hx & E). apply eqb_bytes_spec in E. now subst.
  - intros Hk. exists k. split; [exact Hk|]. now apply eqb_bytes_spec.
Qed.

Section Lints.
  Context (low : bytes -> bytes).
  Notation headers_prop := (fun p => match p with PClass c => headers_class c | _ => [] end).

  (** ** c04 *)
  Definition step04 (st : list finding * list bytes) (h : header) : list finding * list bytes :=
    if h_external h then (fst st, low (h_name h) :: snd st)
    else (fst st ++ match h_parent h with
                    | Some p => if negb (eqb_bytes (low p) (low (h_name h))) && negb (has (low p) (snd st)) then [Some (ExternalMissing (h_name h) p)] else []
                    | None => []
                    end, low (h_name h) :: snd st).
  Lemma c04_props_eq : forall ps st, Forall (Pprop (fun c => forall st, c04_class low c st = fold_left step04 (headers_class c) st)) ps ->
    fold_left (fun st p => match p with PClass c => c04_class low c st | _ => st end) ps st = fold_left step04 (flat_map headers_prop ps) st.
  Proof.
    induction ps as [|p ps IH]; intros st F; [reflexivity|]. inversion F as [|? ? Hp Hps]; subst. cbn [fold_left flat_map]. rewrite fold_left_app, IH by auto.
    f_equal. destruct p as [n v e|c|n|n]; try reflexivity. exact (Hp st).
  Qed.
  Lemma c04_class_eq : forall c st, c04_class low c st = fold_left step04 (headers_class c) st.
  Proof.
    induction c as [ps IH|n parent ps mb IH|n] using class_ind'; intros st; cbn [c04_class headers_class fold_left].
    - now apply c04_props_eq.
    - rewrite c04_props_eq by exact IH. reflexivity.
    - reflexivity.
  Qed.
  Lemma fold04 : forall hs st x, In x (fst (fold_left step04 hs st)) <-> In x (fst st) \/
    exists before n p after, hs = before ++ Header n (Some p) false :: after /\ x = Some (ExternalMissing n p) /\
      low p <> low n /\ ~ In (low p) (snd st) /\ forall h, In h before -> low (h_name h) <> low p.
  Proof.
    induction hs as [|h hs IH]; intros st x.
    { cbn. split; [auto|]. intros [?|([|? ?] & ? & ? & ? & [=] & _)]; auto. }
    cbn [fold_left]. rewrite IH. destruct h as [n parent ext].
    assert (S : snd (step04 st (Header n parent ext)) = low n :: snd st) by (destruct ext; reflexivity). rewrite S. clear S.
    assert (F : In x (fst (step04 st (Header n parent ext))) <-> In x (fst st) \/
      exists p, parent = Some p /\ ext = false /\ x = Some (ExternalMissing n p) /\ low p <> low n /\ ~ In (low p) (snd st)).
    { unfold step04. cbn [h_external h_parent h_name]. destruct ext; cbn [fst]; [split; [auto|]; intros [?|(? & _ & [=] & _)]; auto|].
      rewrite in_app_iff. destruct parent as [p|]; [|split; [intros [?|[]]; auto|]; intros [?|(? & [=] & _)]; auto].
      destruct (eqb_bytes (low p) (low n)) eqn:E1; cbn [negb andb].
      - apply eqb_bytes_spec in E1. split; [intros [?|[]]; auto|]. intros [?|(? & [= <-] & _ & _ & ? & _)]; [auto|contradiction].
      - apply eqb_bytes_false in E1. destruct (has (low p) (snd st)) eqn:E2; cbn [negb].
        + apply has_spec in E2. split; [intros [?|[]]; auto|]. intros [?|(? & [= <-] & _ & _ & _ & ?)]; [auto|contradiction].
        + assert (~ In (low p) (snd st)) by (rewrite <- has_spec; congruence). split.
          * intros [?|[<-|[]]]; [auto|]. right. exists p. auto.
          * intros [?|(? & [= <-] & _ & -> & _)]; [auto|]. right. now left. }
    rewrite F. split.
    - intros [[Hx|(p & -> & -> & -> & H1 & H2)]|(before & n' & p & after & -> & -> & H1 & H2 & H3)]; [auto| |].
      + right. exists [], n, p, hs. repeat (split; [reflexivity || assumption|]). intros h [].
      + right. exists (Header n parent ext :: before), n', p, after. split; [reflexivity|]. split; [reflexivity|]. split; [exact H1|].
        split; [intros Hi; apply H2; now right|]. intros h [<-|Hh]; [|auto]. cbn. intros E. apply H2. now left.
    - intros [Hx|([|h before] & n' & p & after & E & -> & H1 & H2 & H3)]; [auto| |].
      + injection E as -> -> -> ->. left. right. exists p. auto.
      + injection E as <- ->. right. exists before, n', p, after. split; [reflexivity|]. split; [reflexivity|]. split; [exact H1|].
        split; [|intros h Hh; apply H3; now right]. intros [E|Hi]; [|contradiction]. apply (H3 (Header n parent ext)); [now left|exact E].
  Qed.
  Theorem c04_exact : forall ps x, In x (c04 low ps) <-> exists n p, x = Some (ExternalMissing n p) /\ orphan low ps n p.
  Proof.
    intros ps x. unfold c04. rewrite c04_class_eq, fold04. cbn [fst snd]. unfold orphan, headers. split.
    - intros [[]|(before & n & p & after & E & -> & H1 & _ & H2)]. exists n, p. split; [reflexivity|]. exists before, after. auto.
    - intros (n & p & -> & before & after & E & H1 & H2). right. exists before, n, p, after. split; [exact E|]. split; [reflexivity|]. split; [exact H1|]. split; [intros []|exact H2].
  Qed.

  (** ** c05 *)
  Fixpoint events (c : class) : list (option header) :=
    match c with
    | Root _ => [None]
    | External n => [Some (Header n None true)]
    | Local n parent ps _ => Some (Header n parent false) :: flat_map (fun p => match p with PClass c => events c | _ => [] end) ps
    end.
  Notation events_prop := (fun p => match p with PClass c => events c | _ => [] end).
  Definition wrong05 (d : list (bytes * bytes)) (h : header) : list finding :=
    if h_external h then []
    else match h_parent h with
         | Some p =>
             if negb (eqb_bytes (low p) (low (h_name h))) then
               match definition (low p) d with
               | Some e => if negb (eqb_bytes e p) then [Some (ParentCase (h_name h) p e)] else []
               | None => []
               end
             else if negb (eqb_bytes p (h_name h)) then [Some (ParentCase (h_name h) p (h_name h))] else []
         | None => []
         end.
  Definition defs05 (d : list (bytes * bytes)) (h : header) : list (bytes * bytes) :=
    if h_external h then match definition (low (h_name h)) d with Some _ => d | None => (low (h_name h), h_name h) :: d end
    else (low (h_name h), h_name h) :: d.
  Definition step05 (st : list finding * list (bytes * bytes)) (e : option header) : list finding * list (bytes * bytes) :=
    match e with
    | None => (fst st ++ [None], snd st)
    | Some h => (fst st ++ wrong05 (snd st) h, defs05 (snd st) h)
    end.
  Lemma c05_props_eq : forall ps st, Forall (Pprop (fun c => forall st, c05_class low c st = fold_left step05 (events c) st)) ps ->
    fold_left (fun st p => match p with PClass c => c05_class low c st | _ => st end) ps st = fold_left step05 (flat_map events_prop ps) st.
  Proof.
    induction ps as [|p ps IH]; intros st F; [reflexivity|]. inversion F as [|? ? Hp Hps]; subst. cbn [fold_left flat_map]. rewrite fold_left_app, IH by auto.
    f_equal. destruct p as [n v e|c|n|n]; try reflexivity. exact (Hp st).
  Qed.
  Lemma c05_class_eq : forall c st, c05_class low c st = fold_left step05 (events c) st.
  Proof.
    induction c as [ps IH|n parent ps mb IH|n] using class_ind'; intros st; cbn [c05_class events fold_left].
    - reflexivity.
    - rewrite c05_props_eq by exact IH. reflexivity.
    - unfold step05, wrong05, defs05. cbn [h_external h_name]. now rewrite app_nil_r.
  Qed.
  (** No root within. *)
  Definition rootless (ps : list property) : Prop := forall p qs, within ps p -> p <> PClass (Root qs).
  Lemma events_headers : forall ps, rootless ps -> flat_map events_prop ps = map Some (flat_map headers_prop ps).
  Proof.
    assert (P : forall ps, Forall (Pprop (fun c => rootless [PClass c] -> events c = map Some (headers_class c))) ps -> rootless ps ->
      flat_map events_prop ps = map Some (flat_map headers_prop ps)).
    { intros ps F Hr. rewrite Forall_forall in F.
      assert (G : forall l, (forall p, In p l -> In p ps) -> flat_map events_prop l = map Some (flat_map headers_prop l)).
      { induction l as [|p l IH]; intros Hl; [reflexivity|]. cbn [flat_map]. rewrite map_app, IH by (intros; apply Hl; now right). f_equal.
        destruct p as [n v e|c|n|n]; try reflexivity. assert (Hc : In (PClass c) ps) by (apply Hl; now left). apply (F _ Hc).
        intros q qs (b & Hb & Hq) ->. refine (Hr (PClass (Root qs)) qs _ eq_refl).
        inversion Hb as [|? ps' ? Hi Hb'|? n' pa' ps' mb' ? Hi Hb']; subst; try (destruct Hi as [[= ->]|[]]).
        - destruct Hq as [E|[]]. rewrite <- E. exists ps. split; [constructor|exact Hc].
        - exists b. split; [eapply B_root; eauto|exact Hq].
        - exists b. split; [eapply B_local; eauto|exact Hq]. }
      apply G. auto. }
    assert (C : forall c, rootless [PClass c] -> events c = map Some (headers_class c)).
    { induction c as [ps IH|n parent ps mb IH|n] using class_ind'; intros Hr; cbn [events headers_class map]; [| |reflexivity].
      - exfalso. apply (Hr (PClass (Root ps)) ps); [|reflexivity]. eexists. split; [constructor|now left].
      - f_equal. apply P; [exact IH|]. intros q qs (b & Hb & Hq). apply Hr. exists b. split; [eapply B_local; [now left|exact Hb]|exact Hq]. }
    intros ps. apply P. apply Forall_forall. intros [n v e|c|n|n] _; cbn; auto.
  Qed.

  Definition defs (hs : list header) : list (bytes * bytes) := fold_left defs05 hs [].
  Lemma spelled_nil : forall k s, ~ spelled low [] k s.
  Proof. intros k s [(l & pa & r & E & _)|(_ & l & r & E & _)]; destruct l; discriminate. Qed.
  Lemma spelled_in : forall hs k s, spelled low hs k s -> exists h, In h hs /\ low (h_name h) = k /\ h_name h = s.
  Proof.
    intros hs k s [(l & pa & r & -> & E & _)|(_ & l & r & -> & E & _)]; eexists; (split; [apply in_or_app; right; now left|]); auto.
  Qed.
  Lemma spelled_some : forall hs k, (exists h, In h hs /\ low (h_name h) = k) -> (forall h, In h hs -> h_external h = true -> h_parent h = None) -> exists s, spelled low hs k s.
  Proof.
    intros hs k (h & Hh & E) Hp. destruct (Exists_dec (fun h => h_external h = false /\ low (h_name h) = k) hs) as [X|X].
    { intros [n pa [|]]; cbn; [right; intros [? _]; discriminate|]. destruct (list_eq_dec N.eq_dec (low n) k); [left; auto|right; intros [_ ?]; auto]. }
    - assert (Y : exists l h r, hs = l ++ h :: r /\ h_external h = false /\ low (h_name h) = k /\ forall h, In h r -> h_external h = false -> low (h_name h) <> k).
      { clear Hh h E Hp. induction hs as [|h hs IH]; [inversion X|].
        destruct (Exists_dec (fun h => h_external h = false /\ low (h_name h) = k) hs) as [Y|Y].
        { intros [n pa [|]]; cbn; [right; intros [? _]; discriminate|]. destruct (list_eq_dec N.eq_dec (low n) k); [left; auto|right; intros [_ ?]; auto]. }
        - destruct (IH Y) as (l & h' & r & -> & H1 & H2 & H3). exists (h :: l), h', r. auto.
        - inversion X as [? ? [H1 H2]|? ? H1]; subst; [|contradiction]. exists [], h, hs. split; [reflexivity|]. split; [exact H1|]. split; [reflexivity|].
          intros h' Hh' H3 H4. apply Y, Exists_exists. eauto. }
      destruct Y as (l & [n pa ext] & r & -> & H1 & H2 & H3). cbn in H1, H2. subst ext. exists n. left. exists l, pa, r. auto.
    - assert (Y : exists l h r, hs = l ++ h :: r /\ low (h_name h) = k /\ forall h, In h l -> low (h_name h) <> k).
      { clear X Hp. induction hs as [|g hs IH]; [destruct Hh|]. destruct (list_eq_dec N.eq_dec (low (h_name g)) k) as [Eg|Eg].
        - exists [], g, hs. split; [reflexivity|]. split; [exact Eg|]. intros ? [].
        - destruct Hh as [->|Hh]; [congruence|]. destruct (IH Hh) as (l & h' & r & -> & H1 & H2). exists (g :: l), h', r. split; [reflexivity|]. split; [exact H1|].
          intros x [<-|Hx]; auto. }
      destruct Y as (l & [n pa ext] & r & -> & H1 & H2). cbn in H1.
      assert (ext = true). { destruct ext; [reflexivity|]. exfalso. apply X, Exists_exists. eexists. split; [apply in_or_app; right; now left|]. auto. }
      subst ext. assert (pa = None). { apply (Hp (Header n pa true)); [apply in_or_app; right; now left|reflexivity]. } subst pa.
      exists n. right. split; [|exists l, r; auto]. intros g Hg Eg E'. apply X, Exists_exists. eauto.
  Qed.
  Lemma spelled_app : forall hs h k s, spelled low (hs ++ [h]) k s <->
    if h_external h then spelled low hs k s \/ ((forall g, In g hs -> low (h_name g) <> k) /\ h = Header s None true /\ low s = k)
    else if list_eq_dec N.eq_dec (low (h_name h)) k then s = h_name h else spelled low hs k s.
  Proof.
    intros hs [n pa ext] k s. cbn [h_external h_name].
    assert (SN : forall A (l : list A) x l' y r, l ++ [x] = l' ++ y :: r -> (r = [] /\ x = y /\ l = l') \/ exists r', r = r' ++ [x] /\ l = l' ++ y :: r').
    { intros A l x l' y r E. destruct r as [|z r] using rev_ind.
      - apply app_inj_tail in E as [-> ->]. left. auto.
      - right. rewrite app_comm_cons, app_assoc in E. apply app_inj_tail in E as [-> ->]. eauto. }
    destruct ext.
    - split.
      + intros [(l & pa' & r & E & H1 & H2)|(H0 & l & r & E & H1 & H2)].
        * apply SN in E as [(-> & [=] & _)|(r' & -> & ->)]. left. left. exists l, pa', r'. split; [reflexivity|]. split; [exact H1|]. intros; apply H2; auto. apply in_or_app. now left.
        * apply SN in E as [(-> & [= -> ->] & ->)|(r' & -> & ->)].
          -- right. auto.
          -- left. right. split; [intros; apply H0; auto; apply in_or_app; now left|]. exists l, r'. auto.
      + intros [[(l & pa' & r & -> & H1 & H2)|(H0 & l & r & -> & H1 & H2)]|(H0 & [= -> ->] & H1)].
        * left. exists l, pa', (r ++ [Header n pa true]). split; [now rewrite <- app_assoc|]. split; [exact H1|]. intros h Hh. apply in_app_or in Hh as [Hh|[<-|[]]]; [auto|discriminate].
        * right. split; [intros h Hh; apply in_app_or in Hh as [Hh|[<-|[]]]; [auto|discriminate]|]. exists l, (r ++ [Header n pa true]). split; [now rewrite <- app_assoc|]. auto.
        * right. split; [intros h Hh; apply in_app_or in Hh as [Hh|[<-|[]]]; [auto|discriminate]|]. exists hs, []. auto.
    - destruct (list_eq_dec N.eq_dec (low n) k) as [Ek|Ek].
      + split.
        * intros [(l & pa' & r & E & H1 & H2)|(H0 & _)].
          -- apply SN in E as [(-> & [= -> ->] & ->)|(r' & -> & ->)]; [reflexivity|]. exfalso. apply (H2 (Header n pa false)); auto. apply in_or_app. right. now left.
          -- exfalso. apply (H0 (Header n pa false)); auto. apply in_or_app. right. now left.
        * intros ->. left. exists hs, pa, []. split; [reflexivity|]. split; [exact Ek|]. intros h [].
      + split.
        * intros [(l & pa' & r & E & H1 & H2)|(H0 & l & r & E & H1 & H2)].
          -- apply SN in E as [(-> & [= -> ->] & ->)|(r' & -> & ->)]; [contradiction|]. left. exists l, pa', r'. split; [reflexivity|]. split; [exact H1|]. intros; apply H2; auto. apply in_or_app. now left.
          -- apply SN in E as [(-> & [=] & _)|(r' & -> & ->)]. right. split; [intros; apply H0; auto; apply in_or_app; now left|]. exists l, r'. auto.
        * intros [(l & pa' & r & -> & H1 & H2)|(H0 & l & r & -> & H1 & H2)].
          -- left. exists l, pa', (r ++ [Header n pa false]). split; [now rewrite <- app_assoc|]. split; [exact H1|]. intros h Hh. apply in_app_or in Hh as [Hh|[<-|[]]]; [auto|]. intros _. exact Ek.
          -- right. split; [intros h Hh; apply in_app_or in Hh as [Hh|[<-|[]]]; [auto|intros _; exact Ek]|]. exists l, (r ++ [Header n pa false]). split; [now rewrite <- app_assoc|]. auto.
  Qed.
  Definition tidy (hs : list header) : Prop := forall h, In h hs -> h_external h = true -> h_parent h = None.
  Lemma defs_spelled : forall hs, tidy hs -> forall k s, definition k (defs hs) = Some s <-> spelled low hs k s.
  Proof.
    induction hs as [|h hs IH] using rev_ind; intros Ht k s.
    { cbn. split; [discriminate|]. intros X. now apply spelled_nil in X. }
    assert (Ht' : tidy hs) by (intros g Hg; apply Ht, in_or_app; now left). specialize (IH Ht').
    assert (ND : forall k, definition k (defs hs) = None -> forall g, In g hs -> low (h_name g) <> k).
    { intros k' Hn g Hg E. destruct (spelled_some hs k') as (s' & X); [eauto|exact Ht'|]. apply IH in X. congruence. }
    unfold defs in *. rewrite fold_left_app. cbn [fold_left]. rewrite spelled_app. unfold defs05 at 1. destruct (h_external h) eqn:Ex.
    - assert (Hh : h = Header (h_name h) None true). { pose proof (Ht h ltac:(apply in_or_app; right; now left) Ex). destruct h; cbn in *; congruence. }
      destruct (definition (low (h_name h)) (fold_left defs05 hs [])) as [d|] eqn:Ed.
      + rewrite IH. split; [auto|]. intros [X|(X & E & E')]; [exact X|]. exfalso. rewrite E in Ed. cbn in Ed. apply IH, spelled_in in Ed as (g & Hg & Eg & _). apply (X g Hg). congruence.
      + cbn [definition]. destruct (eqb_bytes k (low (h_name h))) eqn:E.
        * apply eqb_bytes_spec in E as ->. split.
          -- intros [= <-]. right. split; [now apply ND|]. auto.
          -- intros [X|(_ & E & _)]; [exfalso; apply IH in X; congruence|]. rewrite E. reflexivity.
        * apply eqb_bytes_false in E. rewrite IH. split; [auto|]. intros [X|(_ & E' & E'')]; [exact X|]. exfalso. rewrite E' in E. cbn in E. congruence.
    - cbn [definition]. destruct (list_eq_dec N.eq_dec (low (h_name h)) k) as [<-|Ek].
      + replace (eqb_bytes (low (h_name h)) (low (h_name h))) with true by (symmetry; now apply eqb_bytes_spec). split; congruence.
      + replace (eqb_bytes k (low (h_name h))) with false by (symmetry; apply eqb_bytes_false; congruence). apply IH.
  Qed.

  Lemma fold05 : forall hs st x, In x (fst (fold_left step05 (map Some hs) st)) <-> In x (fst st) \/
    exists before h after, hs = before ++ h :: after /\ In x (wrong05 (fold_left defs05 before (snd st)) h).
  Proof.
    induction hs as [|h hs IH]; intros st x.
    { cbn. split; [auto|]. intros [?|([|? ?] & ? & ? & [=] & _)]; auto. }
    cbn [map fold_left]. rewrite IH. cbn [step05 fst snd]. rewrite in_app_iff. split.
    - intros [[Hx|Hx]|(before & g & after & -> & Hx)]; [auto| |].
      + right. exists [], h, hs. auto.
      + right. exists (h :: before), g, after. auto.
    - intros [Hx|([|g before] & g' & after & E & Hx)]; [auto| |].
      + injection E as <- <-. auto.
      + injection E as <- ->. right. exists before, g', after. auto.
  Qed.
  Lemma headers_tidy : forall ps, tidy (headers ps).
  Proof.
    assert (C : forall c h, In h (headers_class c) -> h_external h = true -> h_parent h = None).
    { induction c as [ps IH|n parent ps mb IH|n] using class_ind'; intros h Hh Hx; cbn [headers_class] in Hh.
      - apply in_flat_map in Hh as (p & Hp & Hh). rewrite Forall_forall in IH. specialize (IH p Hp). destruct p as [? ? ?|c|?|?]; try (now destruct Hh). exact (IH h Hh Hx).
      - destruct Hh as [<-|Hh]; [discriminate|]. apply in_flat_map in Hh as (p & Hp & Hh). rewrite Forall_forall in IH. specialize (IH p Hp). destruct p as [? ? ?|c|?|?]; try (now destruct Hh). exact (IH h Hh Hx).
      - destruct Hh as [<-|[]]. reflexivity. }
    intros ps h. apply C.
  Qed.
  Theorem c05_exact : forall c x, rootless (class_body c) ->
    (In x (c05 low c) <-> exists n p d, x = Some (ParentCase n p d) /\ misspelled low (headers (class_body c)) n p d).
  Proof.
    intros c x Hr. unfold c05. replace (class_props c) with (class_body c) by now destruct c. set (ps := class_body c) in *.
    rewrite c05_props_eq by (apply Forall_forall; intros [? ? ?|?|?|?] _; cbn; auto; intros; apply c05_class_eq).
    rewrite events_headers by exact Hr. rewrite fold05. cbn [fst snd]. change (flat_map headers_prop ps) with (headers ps).
    pose proof (headers_tidy ps) as Ht. unfold misspelled. split.
    - intros [[]|(before & [n pa ext] & after & E & Hx)]. unfold wrong05 in Hx. cbn [h_external h_parent h_name] in Hx.
      destruct ext; [destruct Hx|]. destruct pa as [p|]; [|destruct Hx].
      assert (Tb : tidy before) by (intros g Hg; apply Ht; rewrite E; apply in_or_app; now left).
      destruct (eqb_bytes (low p) (low n)) eqn:E1; cbn [negb] in Hx.
      + apply eqb_bytes_spec in E1. destruct (eqb_bytes p n) eqn:E2; [destruct Hx|]. apply eqb_bytes_false in E2. destruct Hx as [<-|[]].
        exists n, p, n. split; [reflexivity|]. exists before, after. split; [exact E|]. split; [exact E2|]. destruct (list_eq_dec N.eq_dec (low p) (low n)); [reflexivity|contradiction].
      + apply eqb_bytes_false in E1. destruct (definition (low p) (fold_left defs05 before [])) as [d|] eqn:Ed; [|destruct Hx].
        destruct (eqb_bytes d p) eqn:E2; [destruct Hx|]. apply eqb_bytes_false in E2. destruct Hx as [<-|[]].
        exists n, p, d. split; [reflexivity|]. exists before, after. split; [exact E|]. split; [congruence|]. destruct (list_eq_dec N.eq_dec (low p) (low n)); [contradiction|].
        now apply defs_spelled.
    - intros (n & p & d & -> & before & after & E & Hne & Hd). right. exists before, (Header n (Some p) false), after. split; [exact E|].
      assert (Tb : tidy before) by (intros g Hg; apply Ht; rewrite E; apply in_or_app; now left).
      unfold wrong05. cbn [h_external h_parent h_name]. destruct (list_eq_dec N.eq_dec (low p) (low n)) as [E1|E1].
      + subst d. replace (eqb_bytes (low p) (low n)) with true by (symmetry; now apply eqb_bytes_spec). cbn [negb].
        replace (eqb_bytes p n) with false by (symmetry; now apply eqb_bytes_false). now left.
      + replace (eqb_bytes (low p) (low n)) with false by (symmetry; now apply eqb_bytes_false). cbn [negb].
        apply (defs_spelled before Tb) in Hd. unfold defs in Hd. rewrite Hd. replace (eqb_bytes d p) with false by (symmetry; apply eqb_bytes_false; congruence). now left.
  Qed.
End Lints.
