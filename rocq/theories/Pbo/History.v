From Verif Require Import Base.Tactics Base.Bytes Base.Sort Io.Model Io.Spec Io.Proofs Pbo.Model Pbo.Spec Pbo.Proofs Pbo.Roundtrip.
Local Open Scope N_scope.

Lemma same_path_norm a b : same_path a b <-> norm a = norm b.
Proof.
  split.
  - induction 1 as [|x y a b Hxy _ IH]; cbn; [auto|]. f_equal; [|exact IH].
    destruct Hxy as [->|[[-> ->]|[-> ->]]]; reflexivity.
  - revert b; induction a as [|x a IH]; intros [|y b] H; try discriminate; [constructor|].
    cbn in H. injection H as Hxy H. constructor; [|apply IH; exact H].
    destruct (x =? 47) eqn:Ex; destruct (y =? 47) eqn:Ey;
      repeat match goal with H : (_ =? _) = true |- _ => apply N.eqb_eq in H end; subst; auto.
Qed.

Lemma run_snoc ops o : run (ops ++ [o]) = step (run ops) o.
Proof. unfold run. now rewrite fold_left_app. Qed.

Lemma run_props_nodup ops : NoDup (map fst (w_props (run ops))).
Proof.
  induction ops as [|o ops IH] using rev_ind; [constructor|]. rewrite run_snoc.
  destruct o as [n c|h c|k v|k]; cbn; auto.
  - unfold add_file. destruct (_ <? _); auto.
  - now apply im_insert_nodup.
  - now apply im_swap_remove_nodup.
Qed.

Lemma w_file_insert name k c h ps m :
  w_file name (WPbo ps (im_insert k (c, h) m)) =
  if eqb_bytes (norm name) k then Some c else w_file name (WPbo ps m).
Proof.
  unfold w_file. cbn. destruct (eqb_bytes (norm name) k) eqn:E.
  - apply eqb_bytes_spec in E; subst. now rewrite im_get_insert_same.
  - apply eqb_bytes_false in E. now rewrite im_get_insert_other.
Qed.

Lemma snoc_inv {A} (l l' : list A) a a' : l ++ [a] = l' ++ [a'] -> l = l' /\ a = a'.
Proof. apply app_inj_tail. Qed.

Lemma file_history ops name c : w_file name (run ops) = Some c <-> newest_file name ops c.
Proof.
  revert c; induction ops as [|o ops IH] using rev_ind; intro c.
  - split; [discriminate|]. intro H. inversion H as [? ? ? ? ? E|? ? ? ? E|? ? ? ? ? E];
      apply app_eq_nil in E as [_ ?]; discriminate.
  - rewrite run_snoc. split.
    + intro H. destruct o as [n c'|h c'|k v|k]; cbn in H.
      * unfold add_file in H. destruct (4294967295 <? blen c') eqn:E.
        -- apply newest_before; [|now apply IH]. intros _. apply N.ltb_lt in E. cbn. lia.
        -- rewrite w_file_insert in H. destruct (eqb_bytes (norm name) (norm n)) eqn:En.
           ++ injection H as <-. apply newest_here.
              ** apply same_path_norm. symmetry. now apply eqb_bytes_spec.
              ** apply N.ltb_ge in E. cbn. lia.
           ++ apply newest_before; [|apply IH; destruct (run ops); exact H].
              intro Hs. apply same_path_norm in Hs. apply eqb_bytes_false in En. congruence.
      * unfold add_file_with_header in H. rewrite w_file_insert in H.
        destruct (eqb_bytes (norm name) (norm (h_name h))) eqn:En.
        -- injection H as <-. apply newest_here_h. apply same_path_norm. symmetry. now apply eqb_bytes_spec.
        -- apply newest_before; [|apply IH; destruct (run ops); exact H].
           intro Hs. apply same_path_norm in Hs. apply eqb_bytes_false in En. congruence.
      * apply newest_before; [exact I|]. apply IH. exact H.
      * apply newest_before; [exact I|]. apply IH. exact H.
    + intro H. inversion H as [ops' n c' Hs Hl E|ops' h c' Hs E|ops' o' c' Ho Hn E]; subst;
        apply snoc_inv in E as [-> E].
      * subst o. cbn. unfold add_file. destruct (4294967295 <? blen c) eqn:El; [apply N.ltb_lt in El; cbn in Hl; lia|].
        rewrite w_file_insert. apply same_path_norm in Hs. rewrite Hs, eqb_bytes_refl. reflexivity.
      * subst o. cbn. unfold add_file_with_header. rewrite w_file_insert. apply same_path_norm in Hs.
        rewrite Hs, eqb_bytes_refl. reflexivity.
      * subst o'. apply IH in Hn. destruct o as [n c'|h c'|k v|k]; cbn; auto.
        -- unfold add_file. destruct (4294967295 <? blen c') eqn:El; [auto|]. apply N.ltb_ge in El.
           rewrite w_file_insert. destruct (eqb_bytes (norm name) (norm n)) eqn:En; [|destruct (run ops); exact Hn].
           apply eqb_bytes_spec in En. symmetry in En. apply same_path_norm in En. apply Ho in En. cbn in En. lia.
        -- unfold add_file_with_header. rewrite w_file_insert.
           destruct (eqb_bytes (norm name) (norm (h_name h))) eqn:En; [|destruct (run ops); exact Hn].
           apply eqb_bytes_spec in En. symmetry in En. apply same_path_norm in En. contradiction.
Qed.

Lemma property_history ops key v : w_property key (run ops) = Some v <-> newest_property key ops v.
Proof.
  revert v; induction ops as [|o ops IH] using rev_ind; intro v.
  - split; [discriminate|]. intro H. inversion H as [? ? ? ? E|? ? ? ? ? E];
      apply app_eq_nil in E as [_ ?]; discriminate.
  - rewrite run_snoc. pose proof (run_props_nodup ops) as HN. split.
    + intro H. destruct o as [n c'|h c'|k s|k]; cbn in H.
      * apply newest_prop_before; [exact I|]. apply IH. unfold add_file in H. destruct (_ <? _); exact H.
      * apply newest_prop_before; [exact I|]. apply IH. exact H.
      * unfold w_property, add_property in H. cbn in H. destruct (eqb_bytes key k) eqn:E.
        -- apply eqb_bytes_spec in E; subst k. rewrite im_get_insert_same in H. injection H as <-.
           apply newest_prop. apply trim_matches_stripped.
        -- apply eqb_bytes_false in E. rewrite im_get_insert_other in H by auto.
           apply newest_prop_before; [congruence|]. apply IH. exact H.
      * unfold w_property, remove_property in H. cbn in H. destruct (eqb_bytes key k) eqn:E.
        -- apply eqb_bytes_spec in E; subst k. rewrite im_get_swap_remove_same in H by auto. discriminate.
        -- apply eqb_bytes_false in E. rewrite im_get_swap_remove_other in H by auto.
           apply newest_prop_before; [congruence|]. apply IH. exact H.
    + intro H. inversion H as [ops' s v' Hs E|ops' o' v' Ho Hn E]; subst; apply snoc_inv in E as [-> E].
      * subst o. cbn. unfold w_property, add_property. cbn. rewrite im_get_insert_same. f_equal.
        eapply stripped_unique; [apply trim_matches_stripped|exact Hs].
      * subst o'. apply IH in Hn. destruct o as [n c'|h c'|k s|k]; cbn; auto.
        -- unfold add_file. destruct (_ <? _); exact Hn.
        -- unfold w_property, add_property in *. cbn. rewrite im_get_insert_other by congruence. exact Hn.
        -- unfold w_property, remove_property in *. cbn. rewrite im_get_swap_remove_other by (auto; congruence). exact Hn.
Qed.
