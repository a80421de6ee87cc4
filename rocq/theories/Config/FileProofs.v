(** Proofs for C82: what the grammar says can be stored, and a file without directives reaches the parser as it is. *)
From Coq Require Import String.
From Verif Require Import Base.Tactics Base.Bytes Base.Ascii Base.Text Config.RapModel Config.RapTree Config.ParseSpec Config.GrammarSpec Config.AnalyzeSpec Io.Spec.
From Verif Require Preproc.Model Preproc.LexModel Preproc.LexSpec Preproc.LexProofs Preproc.Spec Preproc.Props Workspace.ProcessedModel Workspace.Spec Workspace.ProcessedProofs Workspace.Props.
Local Open Scope N_scope.
Local Open Scope list_scope.

(** ** What the grammar says can be stored *)
Section Storable.
  Context (f32 : text -> N -> Prop) (agrees : number -> Prop) (Words : forall t b, f32 t b -> b < 2 ^ 32).
  Scheme f_item_mind := Minimality for item_text Sort Prop
    with f_array_mind := Minimality for array_text Sort Prop
    with f_elems_mind := Minimality for elems Sort Prop.
  Combined Scheme f_items_ind from f_item_mind, f_array_mind, f_elems_mind.
  Scheme f_property_mind := Minimality for property_text Sort Prop with f_properties_mind := Minimality for properties_text Sort Prop.
  Combined Scheme f_properties_ind from f_property_mind, f_properties_mind.

  Lemma unfolded_sub a b x : unfolded a b -> In x b -> In x a.
  Proof. induction 1; cbn; intuition. Qed.
  Lemma quoted_sub s x : In x s -> In x (quoted s).
  Proof.
    intros H. unfold quoted. apply in_or_app. right. apply in_or_app. left. apply in_flat_map. exists x. split; [exact H|].
    destruct (x =? 34) eqn:E; cbn; [left; apply N.eqb_eq in E; congruence|auto].
  Qed.
  Lemma literal_sub segs t x : literal segs t -> x <> 10 -> In x (join [10] segs) -> In x t.
  Proof.
    intros H N. induction H as [s|s w1 w2 segs t B1 B2 Hl IH].
    - cbn [join]. apply quoted_sub.
    - intros Hin. destruct segs as [|s' segs]; [inversion Hl|].
      change (join [10] (s :: s' :: segs)) with (s ++ [10] ++ join [10] (s' :: segs)) in Hin.
      apply in_app_or in Hin as [Hin|[E|Hin]]; [apply in_or_app; left; now apply quoted_sub|congruence|].
      repeat (apply in_or_app; right). now apply IH.
  Qed.
  Lemma string_nul s t : string_text s t -> ~ In 0 t -> no_nul s.
  Proof. intros (segs & L & U) N H. apply N. apply (literal_sub segs); [exact L|discriminate|]. now apply (unfolded_sub _ s). Qed.
  Lemma name_nul n : name n -> no_nul n.
  Proof. intros [_ H] Hin. rewrite Forall_forall in H. specialize (H 0 Hin). cbv beta in H. clear - H. lia. Qed.
  Lemma name_some n : name n -> n <> [].
  Proof. now intros [H _]. Qed.

  Lemma unsigned_range n t : unsigned_text f32 n t ->
    match n with Int32 v => (0 <= v < 2 ^ 31)%Z | Int64 v => (0 <= v < 2 ^ 63)%Z | Float32 b => b < 2 ^ 32 end.
  Proof.
    change (2 ^ 31)%Z with 2147483648%Z. change (2 ^ 63)%Z with 9223372036854775808%Z.
    intros H; inversion H as [ds v A B C|ds v A B C|ds v A B C|ds v A B C|ds ds' b A B C|ds fr e s x b A B C D E G]; subst;
      try (apply Words in C; exact C); try (apply Words in G; exact G);
      change (2 ^ 31) with 2147483648 in C; change (2 ^ 63) with 9223372036854775808 in C; clear - C; lia.
  Qed.
  Lemma flipped_range b : b < 2 ^ 32 -> N.lxor b (2 ^ 31) < 2 ^ 32.
  Proof.
    intros H. destruct (N.eq_dec (N.lxor b (2 ^ 31)) 0) as [->|Z]; [reflexivity|].
    apply N.log2_lt_pow2; [clear - Z; lia|]. pose proof (N.log2_lxor b (2 ^ 31)) as L. rewrite N.log2_pow2 in L by discriminate.
    destruct (N.eq_dec b 0) as [->|Zb]; [change (N.log2 0) with 0 in L; clear - L; lia|].
    apply N.log2_lt_pow2 in H; [|clear - Zb; lia]. clear - L H. lia.
  Qed.
  Lemma number_range n t : number_text f32 n t -> num_ok n.
  Proof.
    intros H; inversion H as [n' t' U|n' t' U]; subst; apply unsigned_range in U.
    - destruct n; unfold num_ok; try exact U; clear - U; change (2 ^ 31)%Z with 2147483648%Z in *; change (2 ^ 63)%Z with 9223372036854775808%Z in *; lia.
    - destruct n'; unfold num_ok, minus; [..|]; try (now apply flipped_range);
        clear - U; change (2 ^ 31)%Z with 2147483648%Z in *; change (2 ^ 63)%Z with 9223372036854775808%Z in *; lia.
  Qed.

  Lemma items_storable :
    (forall i t w, item_text f32 agrees i t w -> ~ In 0 t -> item_ok i) /\
    (forall l t, array_text f32 agrees l t -> ~ In 0 t -> fold_right (fun e P => item_ok e /\ P) True l) /\
    (forall l t, elems f32 agrees l t -> ~ In 0 t -> fold_right (fun e P => item_ok e /\ P) True l).
  Proof.
    apply f_items_ind; cbn [item_ok fold_right].
    - intros s t w H N. eapply string_nul; eauto.
    - intros n t w H _ _. eapply number_range; eauto.
    - intros l t w _ H. exact H.
    - intros l w t _ _ H N. apply H. intros X. apply N. apply in_or_app. right. apply in_or_app. now right.
    - auto.
    - intros i t w _ _ H N. split; [|exact I]. apply H. intros X. apply N. apply in_or_app. now left.
    - intros i t w1 w2 l u _ _ _ H _ H' N. split.
      + apply H. intros X. apply N. apply in_or_app. now left.
      + apply H'. intros X. apply N. repeat (apply in_or_app; right). exact X.
  Qed.
  Lemma expr_value_storable v t w : value_text f32 agrees v t w -> ~ In 0 t -> value_ok v.
  Proof.
    intros H N; inversion H; subst; cbn [value_ok].
    - eapply string_nul; eauto.
    - eapply number_range; eauto.
    - intros X. apply N. apply in_or_app. right. apply in_or_app. now left.
  Qed.
  Ltac inside := let X := fresh in intros X; match goal with N : ~ In 0 _ |- _ => apply N end; rewrite !in_app_iff; tauto.
  Lemma properties_storable :
    (forall p t, property_text f32 agrees p t -> ~ In 0 t -> prop_ok class_ok p) /\
    (forall ps t, properties_text f32 agrees ps t -> ~ In 0 t -> fold_right (fun p P => prop_ok class_ok p /\ P) True ps).
  Proof.
    apply f_properties_ind; cbn [prop_ok class_ok fold_right value_ok].
    - intros n v t w1 w2 w3 Hn _ _ _ Hv N. split; [now apply name_nul|]. eapply expr_value_storable; [exact Hv|inside].
    - intros n l t w1 w2 w3 w4 Hn _ _ _ _ Hv N. split; [now apply name_nul|]. eapply (proj1 (proj2 items_storable)); [exact Hv|inside].
    - intros n l t w1 w2 w3 w4 Hn _ _ _ _ Hv N. split; [now apply name_nul|]. eapply (proj1 (proj2 items_storable)); [exact Hv|inside].
    - intros n w1 w2 Hn _ _ _. now apply name_nul.
    - intros n w1 w2 Hn _ _ _. now apply name_nul.
    - intros n w1 w2 ps w3 t w4 Hn _ _ _ _ _ H N. split; [now apply name_nul|]. split; [discriminate|]. apply H. inside.
    - intros n w1 w2 v1 p v2 ps w3 t w4 Hn Hp _ _ _ _ _ _ _ H N. split; [now apply name_nul|]. split.
      + intros p' [= <-]. split; [now apply name_nul|now apply name_some].
      + apply H. inside.
    - auto.
    - intros p t w ps u _ H _ _ H' N. split; [apply H|apply H']; inside.
  Qed.
  (** What a text without the character NUL says can be stored. *)
  Lemma config_storable c t : config_text f32 agrees c t -> ~ In 0 t -> config_ok c.
  Proof. intros (w & u & -> & _ & H) N. apply (proj2 properties_storable c u H). inside. Qed.
End Storable.

(** ** The grammar makes no error nodes *)
Section Clean.
  Context (f32 : text -> N -> Prop) (agrees : number -> Prop).
  Definition clean (p : property) : Prop :=
    match p with
    | Entry _ (VArr _ l) true => ~ nested l IInvalid
    | Entry _ (VStr _) false | Entry _ (VNum _) false | Entry _ (VExpr _) false => True
    | Entry _ _ _ | MissingSemicolon _ | PClass (Root _) | PClass (Local _ _ _ true) => False
    | PClass (Local _ _ _ false) | PClass (External _) | Delete _ => True
    end.
  Lemma items_clean :
    (forall i t w, item_text f32 agrees i t w -> i <> IInvalid /\ forall l, i = IArr l -> ~ nested l IInvalid) /\
    (forall l t, array_text f32 agrees l t -> ~ nested l IInvalid) /\
    (forall l t, elems f32 agrees l t -> ~ nested l IInvalid).
  Proof.
    apply f_items_ind.
    - split; [discriminate|intros l [=]].
    - split; [discriminate|intros l [=]].
    - intros l t w _ H. split; [discriminate|]. now intros l' [= <-].
    - auto.
    - intros H. inversion H as [? ? X|? ? ? X ?]; subst; destruct X.
    - intros i t w _ _ [H1 H2] H. inversion H as [? ? X|? l' ? X N]; subst; destruct X as [E|[]]; [congruence|]. subst. now apply (H2 l').
    - intros i t w1 w2 l u _ _ _ [H1 H2] _ IH H. inversion H as [? ? X|? l' ? X N]; subst; destruct X as [E|E]; subst; try congruence.
      + apply IH. now constructor.
      + now apply (H2 l').
      + apply IH. now apply (N_in _ l').
  Qed.
  Lemma properties_clean :
    (forall p t, property_text f32 agrees p t -> clean p /\ forall n pa ps b, p = PClass (Local n pa ps b) -> forall q, within ps q -> clean q) /\
    (forall ps t, properties_text f32 agrees ps t -> forall q, within ps q -> clean q).
  Proof.
    apply f_properties_ind; cbn [clean].
    - intros n v t w1 w2 w3 _ _ _ _ Hv. split; [|intros ? ? ? ? [=]]. inversion Hv; exact I.
    - intros n l t w1 w2 w3 w4 _ _ _ _ _ Hv. split; [|intros ? ? ? ? [=]]. eapply (proj1 (proj2 items_clean)), Hv.
    - intros n l t w1 w2 w3 w4 _ _ _ _ _ Hv. split; [|intros ? ? ? ? [=]]. eapply (proj1 (proj2 items_clean)), Hv.
    - intros n w1 w2 _ _ _. split; [exact I|intros ? ? ? ? [=]].
    - intros n w1 w2 _ _ _. split; [exact I|intros ? ? ? ? [=]].
    - intros n w1 w2 ps w3 t w4 _ _ _ _ _ _ IH. split; [exact I|]. intros ? ? ? ? [= <- <- <- <-]. exact IH.
    - intros n w1 w2 v1 p v2 ps w3 t w4 _ _ _ _ _ _ _ _ _ IH. split; [exact I|]. intros ? ? ? ? [= <- <- <- <-]. exact IH.
    - intros q (b & Hb & Hin). inversion Hb; subst; try (now destruct Hin); contradiction.
    - intros p t w ps u _ [Hp Hc] _ _ IH q (b & Hb & Hin).
      inversion Hb as [|? ? ? Hi Hb'|? n pa qs m ? Hi Hb']; subst.
      + destruct Hin as [<-|Hin]; [exact Hp|]. apply IH. exists ps. split; [constructor|exact Hin].
      + destruct Hi as [->|Hi]; [destruct Hp|]. apply IH. exists b. split; [eapply B_root; eauto|exact Hin].
      + destruct Hi as [->|Hi].
        * apply (Hc _ _ _ _ eq_refl). exists b. auto.
        * apply IH. exists b. split; [eapply B_local; eauto|exact Hin].
  Qed.
  Lemma config_clean c t : config_text f32 agrees c t -> forall q, within c q -> clean q.
  Proof. intros (w & u & _ & _ & H). apply (proj2 properties_clean c u H). Qed.
End Clean.

(** ** A file without directives reaches the parser as it is *)
Section Reaches.
  Import Preproc.Model Workspace.ProcessedModel.
  Context (read : text -> option text).
  Lemma append_direct out p : (forall o, In o out -> exists t, o = Direct t /\ read (p_path (t_pos t)) <> None) ->
    exists q, append read out p = Done q.
  Proof.
    revert p. induction out as [|o out IH]; intros p H; [eexists; reflexivity|].
    destruct (H o (or_introl eq_refl)) as (t & -> & R). cbn [append append1].
    assert (exists q, append_token read p t = Done q) as (q & ->).
    { unfold append_token, source_index. destruct (position _ _); [|destruct (read _); [|contradiction]];
        destruct (is_newline _); try (eexists; reflexivity); destruct (text_eqb _ _); try (eexists; reflexivity); destruct (_ && _); eexists; reflexivity. }
    apply IH. intros o Ho. apply H. now right.
  Qed.
End Reaches.
