(** Lemmas for C20-C22 and C44. *)
From Coq Require Import String.
From Verif Require Import Base.Tactics Base.Bytes Base.Ascii Base.Sort Base.Text Common.VersionModel Common.VersionSpec.
Local Open Scope N_scope.

(** ** Decimal *)
Lemma is_digit_48 d : d < 10 -> is_digit (48 + d) = true.
Proof. intro H. unfold is_digit. lia. Qed.
Lemma digits_val_decimal ds : forall n, ds <> [] -> (digits_val 0 ds = Some n <-> decimal ds n).
Proof.
  assert (A : forall ds n, decimal ds n -> digits_val 0 ds = Some n).
  { intros l n H. induction H as [d Hd|l n d H IH Hd].
    - cbn [digits_val]. rewrite is_digit_48 by auto. f_equal. lia.
    - rewrite digits_val_app, IH. cbn [digits_val]. rewrite is_digit_48 by auto. f_equal. lia. }
  intros n Hne. split; [|apply A]. revert n Hne. induction ds as [|c l IH] using rev_ind; intros n Hne H; [contradiction|].
  rewrite digits_val_app in H. destruct (digits_val 0 l) as [v|] eqn:E; [|discriminate]. cbn [digits_val] in H.
  destruct (is_digit c) eqn:Ec; [|discriminate]. apply Some_inj in H. unfold is_digit in Ec.
  assert (Hc : c = 48 + (c - 48)) by lia. rewrite Hc.
  destruct l as [|x l].
  - cbn in E. apply Some_inj in E. subst v. cbn [app]. replace n with (c - 48) by lia. constructor. lia.
  - replace n with (10 * v + (c - 48)) by lia. constructor; [|lia]. apply IH; [discriminate|auto].
Qed.

Lemma decimal_digits s n : decimal s n -> all_digits s /\ s <> [].
Proof.
  intro H. induction H as [d Hd|l n d H [IH IH'] Hd].
  - split; [|discriminate]. repeat constructor. now apply is_digit_48.
  - split; [|destruct l; discriminate]. apply Forall_app. split; [auto|]. repeat constructor. now apply is_digit_48.
Qed.

Lemma parse_u32_component s n : parse_u32 s = Some n <-> component s n.
Proof.
  unfold parse_u32, component. cbv zeta.
  assert (P : forall ds, (match ds with [] => None | _ => match digits_val 0 ds with Some v => if v <? 2 ^ 32 then Some v else None | None => None end end = Some n)
    <-> n < 2 ^ 32 /\ decimal ds n).
  { intro ds. destruct ds as [|c r].
    - split; [discriminate|]. intros [_ H]. apply decimal_digits in H. destruct H as [_ H]. contradiction.
    - rewrite <- (digits_val_decimal (c :: r)) by discriminate. destruct (digits_val 0 (c :: r)) as [v|].
      + destruct (N.ltb_spec v (2 ^ 32)); split.
        * intro E. apply Some_inj in E. subst. auto.
        * intros [_ E]. auto.
        * discriminate.
        * intros [H1 H2]. apply Some_inj in H2. subst. lia.
      + split; [discriminate|]. intros [_ E]. discriminate. }
  destruct (match s with 43 :: _ => true | _ => false end) eqn:Es.
  - assert (exists r, s = 43 :: r) as [r ->].
    { destruct s as [|c r]; [discriminate|]. exists r. f_equal.
      destruct c as [|q]; [discriminate|]. repeat (destruct q as [q|q|]; try discriminate Es; try reflexivity). }
    rewrite P. split.
    + intros [H1 H2]. split; [auto|]. right. exists r. auto.
    + intros [H1 [H2|(r' & E & H2)]].
      * apply decimal_digits in H2. destruct H2 as [H2 _]. inversion H2 as [|? ? Hd _]; subst. discriminate Hd.
      * cbn in E. injection E as <-. auto.
  - assert (E : match s with 43 :: r => r | _ => s end = s).
    { destruct s as [|c r]; [reflexivity|].
      destruct c as [|q]; [reflexivity|]. repeat (destruct q as [q|q|]; try discriminate Es; try reflexivity). }
    rewrite E, P. split.
    + intros [H1 H2]. auto.
    + intros [H1 [H2|(r' & -> & H2)]]; [auto|]. discriminate Es.
Qed.

Lemma component_chars s n c : component s n -> is_digit c = false -> c <> 43 -> ~ In c s.
Proof.
  intros [_ [H|(r & -> & H)]] Hc Hp Hi; apply decimal_digits in H; destruct H as [H _]; unfold all_digits in H; rewrite Forall_forall in H.
  - rewrite (H c Hi) in Hc. discriminate.
  - cbn in Hi. destruct Hi as [Hi|Hi]; [congruence|]. rewrite (H c Hi) in Hc. discriminate.
Qed.

Lemma component_dec n : n < 2 ^ 32 -> component (dec n) n.
Proof. intro H. apply parse_u32_component. now apply parse_dec. Qed.

(** ** try_from *)
Lemma split_on_cons c s p ps : split_on c s = p :: ps ->
  ~ In c p /\ ((ps = [] /\ s = p) \/ (exists q qs s', ps = q :: qs /\ s = p ++ c :: s' /\ split_on c s' = ps)).
Proof.
  intro H. pose proof (split_on_parts c s) as F. rewrite H in F. inversion F as [|? ? Fp Fps]; subst. split; [auto|].
  destruct (in_dec N.eq_dec c s) as [Hi|Hi].
  - right. destruct (split_once c s) as [[a b]|] eqn:E; [|apply split_once_none in E; contradiction].
    apply split_once_some in E. destruct E as [-> Hn]. rewrite split_on_app in H by auto. injection H as <- <-.
    destruct (split_on c b) as [|q qs] eqn:Eb; [now apply split_on_nonempty in Eb|]. exists q, qs, b. auto.
  - left. rewrite split_on_none in H by auto. injection H as <- <-. auto.
Qed.

Lemma try_from_sound s v : try_from s = VOk v -> version_text s v.
Proof.
  unfold try_from. destruct s as [|s0 s']; [discriminate|]. remember (s0 :: s') as s eqn:Es. clear Es s0 s'.
  destruct (split_on 45 s) as [|first parts] eqn:E1; [discriminate|].
  destruct (split_on 46 first) as [|c1 cs1] eqn:E2; [discriminate|].
  destruct (parse_u32 c1) as [ma|] eqn:P1; [|discriminate].
  destruct cs1 as [|c2 cs2]; [discriminate|].
  destruct (parse_u32 c2) as [mi|] eqn:P2; [|discriminate].
  destruct cs2 as [|c3 cs3]; [discriminate|].
  destruct (parse_u32 c3) as [pa|] eqn:P3; [|discriminate].
  intro H.
  apply parse_u32_component in P1, P2, P3.
  apply split_on_cons in E2. destruct E2 as [_ [[? _]|(q & qs & f2 & Eq & Ef & E2)]]; [discriminate|]. injection Eq as <- <-.
  apply split_on_cons in E2. destruct E2 as [_ [[? _]|(q & qs & f3 & Eq & Ef2 & E2)]]; [discriminate|]. injection Eq as <- <-.
  assert (Hh : exists y, s = first ++ y /\ hash_part y (hd_error parts) /\ ~ In 45 first).
  { apply split_on_cons in E1. destruct E1 as [Hn [[-> ->]|(h & hs & s' & -> & -> & E1)]].
    - exists []. rewrite app_nil_r. repeat split; [constructor|auto].
    - exists (45 :: s'). split; [reflexivity|]. split; [|auto]. cbn [hd_error].
      apply split_on_cons in E1. destruct E1 as [Hn' [[-> ->]|(h' & hs' & s'' & -> & -> & E1)]].
      + apply (a_hash h). auto.
      + apply (a_hash_more h s''). auto. }
  destruct Hh as (y & -> & Hy & Hnf).
  assert (Hb : exists x, f3 = c3 ++ x /\ exists b, build_part x b /\ v = Version ma mi pa b (hd_error parts)).
  { apply split_on_cons in E2. destruct E2 as [Hn3 [[-> ->]|(q & qs & f4 & -> & -> & E2)]].
    - exists []. rewrite app_nil_r. split; [reflexivity|]. exists None. split; [constructor|]. congruence.
    - exists (46 :: f4). split; [reflexivity|]. destruct (parse_u32 q) as [b|] eqn:P4; [|discriminate].
      apply parse_u32_component in P4. exists (Some b). split; [|congruence].
      apply split_on_cons in E2. destruct E2 as [Hn4 [[-> ->]|(q' & qs' & f5 & -> & -> & E2)]].
      + now apply a_build.
      + apply (a_build_more q b f5); [auto|]. intro Hi. apply Hnf. subst first f2.
        repeat (rewrite in_app_iff; right; right). exact Hi. }
  destruct Hb as (x & -> & b & Hb & ->). subst first f2.
  replace ((c1 ++ 46 :: c2 ++ 46 :: c3 ++ x) ++ y) with (c1 ++ bs "." ++ c2 ++ bs "." ++ c3 ++ x ++ y)
    by (rewrite <- !app_assoc; cbn; rewrite <- !app_assoc; cbn; now rewrite <- !app_assoc).
  constructor; auto.
Qed.

Lemma try_from_complete s v : version_text s v -> try_from s = VOk v.
Proof.
  intro H. destruct H as [a b c x y v Ha Hb Hc Hx Hy]. destruct v as [ma mi pa bu ha]. cbn [major minor patch build hash] in *.
  assert (D : forall s n, component s n -> ~ In 45 s /\ ~ In 46 s)
    by (intros s n Hs; split; eapply component_chars; eauto; reflexivity || lia).
  pose proof (D _ _ Ha) as [Na1 Na2]. pose proof (D _ _ Hb) as [Nb1 Nb2]. pose proof (D _ _ Hc) as [Nc1 Nc2].
  set (core := a ++ bs "." ++ b ++ bs "." ++ c ++ x).
  assert (Ec : a ++ bs "." ++ b ++ bs "." ++ c ++ x ++ y = core ++ y)
    by (unfold core; rewrite <- !app_assoc; reflexivity).
  rewrite Ec.
  assert (Nx : ~ In 45 x).
  { destruct Hx as [|d n Hd|d n junk Hd Hj].
    - intros [].
    - apply D in Hd. destruct Hd as [Hd _]. cbn. intros [H|H]; [discriminate|auto].
    - apply D in Hd. destruct Hd as [Hd _]. cbn. rewrite in_app_iff. cbn. intuition discriminate. }
  assert (Ncore : ~ In 45 core).
  { unfold core. rewrite !in_app_iff. cbn. intuition discriminate. }
  assert (S1 : exists parts, split_on 45 (core ++ y) = core :: parts /\ hd_error parts = ha).
  { destruct Hy as [|h Hh|h junk Hh].
    - rewrite app_nil_r, split_on_none by auto. exists []. auto.
    - exists (split_on 45 h). split; [now apply split_on_app|]. rewrite split_on_none by auto. reflexivity.
    - exists (split_on 45 (h ++ 45 :: junk)). split; [now apply split_on_app|]. rewrite split_on_app by auto. reflexivity. }
  destruct S1 as (parts & S1 & S2).
  assert (S3 : exists rest, split_on 46 core = a :: b :: c :: rest /\
     match rest with [] => bu = None | d :: _ => exists n, bu = Some n /\ component d n end).
  { unfold core. change (bs ".") with [46] in *. cbn [app].
    rewrite split_on_app by auto. rewrite split_on_app by auto.
    destruct Hx as [|d n Hd|d n junk Hd Hj].
    - rewrite app_nil_r, split_on_none by auto. exists []. auto.
    - exists (split_on 46 d). split; [f_equal; f_equal; now apply split_on_app|].
      rewrite split_on_none by (apply D in Hd; tauto). eauto.
    - exists (split_on 46 (d ++ 46 :: junk)). split; [f_equal; f_equal; now apply split_on_app|].
      rewrite split_on_app by (apply D in Hd; tauto). eauto. }
  destruct S3 as (rest & S3 & S4).
  apply parse_u32_component in Ha, Hb, Hc.
  unfold try_from. destruct (core ++ y) as [|z zs] eqn:Ez.
  { exfalso. unfold core in Ez. destruct a; discriminate. }
  rewrite S1, S3, Ha, Hb, Hc. destruct rest as [|d rest].
  - now rewrite S4, S2.
  - destruct S4 as (n & -> & Hd). apply parse_u32_component in Hd. now rewrite Hd, S2.
Qed.

Lemma display_text v : u32_fields v -> (forall h, hash v = Some h -> ~ In 45 h) -> version_text (display v) v.
Proof.
  intros (H1 & H2 & H3 & H4) Hh. unfold display. change [46] with (bs "."). change [45] with (bs "-").
  constructor; try now apply component_dec.
  - destruct (build v) as [b|]; constructor. apply component_dec. auto.
  - destruct (hash v) as [h|]; constructor. auto.
Qed.

Lemma display_roundtrip v : u32_fields v ->
  (try_from (display v) = VOk v <-> forall h, hash v = Some h -> ~ In 45 h).
Proof.
  intro Hu. split.
  - intros H h Hh Hi. apply try_from_sound in H.
    assert (Hp : forall x a, hash_part x a -> forall h', a = Some h' -> ~ In 45 h')
      by (intros x a [|h0 H0|h0 j H0] h' E; congruence).
    inversion H as [a b c x y v' _ _ _ _ Hy E1 E2]; subst. eapply Hp; eauto.
  - intro H. apply try_from_complete. now apply display_text.
Qed.

Lemma version_text_fields s v : version_text s v -> u32_fields v /\ (forall h, hash v = Some h -> ~ In 45 h).
Proof.
  intros [a b c x y v' [Ha _] [Hb _] [Hc _] Hx Hy]. split.
  - repeat split; auto. intros n E. rewrite E in Hx. inversion Hx as [|? ? [? _]|? ? ? [? _] _]; subst; auto.
  - intros h E. rewrite E in Hy. inversion Hy; subst; auto.
Qed.

(** ** Order *)
Lemma compare_lt a b : compare a b = Lt <-> version_lt a b.
Proof.
  unfold compare.
  destruct (N.eqb_spec (major a) (major b)) as [E1|E1]; cbn [negb].
  - destruct (N.eqb_spec (minor a) (minor b)) as [E2|E2]; cbn [negb].
    + destruct (N.eqb_spec (patch a) (patch b)) as [E3|E3]; cbn [negb].
      * split.
        -- intro H. apply lt_build; auto. destruct (build a), (build b); try discriminate; constructor. now apply N.compare_lt_iff.
        -- intros [H|? H|? ? H|? ? ? H]; try lia. destruct H as [n|m n H]; [reflexivity|]. now apply N.compare_lt_iff.
      * rewrite N.compare_lt_iff. split; [intro; now apply lt_patch|]. intros [H|? H|? ? H|? ? ? H]; lia.
    + rewrite N.compare_lt_iff. split; [intro; now apply lt_minor|]. intros [H|? H|? ? H|? ? ? H]; lia.
  - rewrite N.compare_lt_iff. split; [intro; now apply lt_major|]. intros [H|? H|? ? H|? ? ? H]; lia.
Qed.

Lemma compare_antisym a b : compare b a = CompOpp (compare a b).
Proof.
  unfold compare. rewrite (N.eqb_sym (major b)), (N.eqb_sym (minor b)), (N.eqb_sym (patch b)).
  destruct (major a =? major b); cbn [negb]; [|apply N.compare_antisym].
  destruct (minor a =? minor b); cbn [negb]; [|apply N.compare_antisym].
  destruct (patch a =? patch b); cbn [negb]; [|apply N.compare_antisym].
  destruct (build a), (build b); try reflexivity. apply N.compare_antisym.
Qed.

Lemma compare_eq a b : compare a b = Eq <-> same_numbers a b.
Proof.
  unfold compare, same_numbers.
  destruct (N.eqb_spec (major a) (major b)) as [E1|E1]; cbn [negb]; [|rewrite N.compare_eq_iff; tauto].
  destruct (N.eqb_spec (minor a) (minor b)) as [E2|E2]; cbn [negb]; [|rewrite N.compare_eq_iff; tauto].
  destruct (N.eqb_spec (patch a) (patch b)) as [E3|E3]; cbn [negb]; [|rewrite N.compare_eq_iff; tauto].
  destruct (build a) as [x|], (build b) as [y|]; try (split; [discriminate|intros (_ & _ & _ & H); discriminate]).
  - rewrite N.compare_eq_iff. split; [intros ->; auto|intros (_ & _ & _ & H); congruence].
  - tauto.
Qed.

Lemma version_lt_trans a b c : version_lt a b -> version_lt b c -> version_lt a c.
Proof.
  intros [H1|E1 H1|E1 F1 H1|E1 F1 G1 H1] [H2|E2 H2|E2 F2 H2|E2 F2 G2 H2];
    try (apply lt_major; lia); try (apply lt_minor; [congruence || lia|lia]);
    try (apply lt_patch; [congruence|congruence|lia]).
  apply lt_build; try congruence. destruct H1 as [n|m n H1]; inversion H2; subst; constructor. lia.
Qed.

(** ** Prefix *)
Lemma strip_cr_in c p : In c (strip_cr p) -> In c p.
Proof.
  unfold strip_cr. destruct (rev p) as [|x r] eqn:E; [auto|].
  assert (K : In c (rev r) -> In c p).
  { intro Hr. rewrite <- (rev_involutive p), E. cbn. apply in_or_app. now left. }
  destruct x as [|q]; [auto|]. repeat (destruct q as [q|q|]; auto).
Qed.

Lemma lines_in l s : In l (lines s) -> (forall c, In c l -> In c s) /\ ~ In 10 l.
Proof.
  unfold lines.
  assert (G : forall ps l, In l (lines_go ps) -> exists p, In p ps /\ forall c, In c l -> In c p).
  { clear. induction ps as [|p ps IH]; intros l H; [destruct H|]. cbn [lines_go] in H. destruct ps as [|q qs].
    - exists p. split; [now left|]. destruct p; [destruct H|destruct H as [<-|[]]; auto].
    - destruct H as [<-|H].
      + exists p. split; [now left|]. intro c. apply strip_cr_in.
      + destruct (IH l H) as (p' & Hp & Hc). exists p'. split; [now right|auto]. }
  intro H. destruct (G _ _ H) as (p & Hp & Hc).
  pose proof (split_on_parts 10 s) as F. rewrite Forall_forall in F. split.
  - intros c Hi. specialize (Hc c Hi). clear - Hp Hc. rewrite <- (join_split 10 s). revert Hp.
    generalize (split_on 10 s). intros ps. induction ps as [|q ps IH]; intros Hp; [destruct Hp|].
    destruct ps as [|q' ps]; [destruct Hp as [<-|[]]; auto|].
    change (In c (q ++ [10] ++ join [10] (q' :: ps))). rewrite !in_app_iff.
    destruct Hp as [<-|Hp]; [auto|]. right. right. auto.
  - intro Hi. apply (F p Hp). auto.
Qed.

Section Prefix.
  Context (lower : text -> text).

  Lemma starts_backslash_spec s : starts_backslash s = true <-> exists r, s = 92 :: r.
  Proof.
    unfold starts_backslash. destruct s as [|c r]; [split; [discriminate|intros [? ?]; discriminate]|].
    split.
    - intro H. exists r. f_equal. destruct c as [|q]; [discriminate|].
      repeat (destruct q as [q|q|]; try discriminate H; try reflexivity).
    - intros [r' E]. injection E as -> ->. reflexivity.
  Qed.

  (** Every accepted prefix is the split of some trimmed text without '/', newline or leading backslash. *)
  Definition prefix_value (d : text) : Prop :=
    trimmed d /\ ~ In 47 d /\ ~ In 10 d /\ (forall r, d <> 92 :: r).

  Lemma prefix_lines_inv content ls parts : (forall l, In l ls -> ~ In 10 l /\ ~ In 47 l) ->
    prefix_lines lower content ls = POk parts -> exists d, parts = split_on 92 d /\ prefix_value d.
  Proof.
    induction ls as [|l ls IH]; intros Hls H; [discriminate|]. cbn [prefix_lines] in H.
    destruct (split_once 61 l) as [[k v]|] eqn:E; [|apply IH; auto; intros; apply Hls; now right].
    destruct (eqb_bytes (lower (trim k)) (bs "prefix")); [|apply IH; auto; intros; apply Hls; now right].
    destruct (starts_backslash (trim v)) eqn:Eb; [discriminate|].
    exists (trim v). split; [congruence|]. apply split_once_some in E. destruct E as [-> _].
    destruct (Hls (k ++ 61 :: v) (or_introl eq_refl)) as [H10 H47].
    split; [apply trim_trimmed|].
    split. { intro Hi. apply H47. apply in_or_app. right. right. now apply trim_in. }
    split. { intro Hi. apply H10. apply in_or_app. right. right. now apply trim_in. }
    intros r Er. assert (starts_backslash (trim v) = true) by (apply starts_backslash_spec; eauto). congruence.
  Qed.

  Lemma one_line_no_newline s : trimmed s -> length (lines s) = 1%nat -> ~ In 10 s.
  Proof.
    intros Ht Hl Hi. destruct (split_once 10 s) as [[a b]|] eqn:E; [|apply split_once_none in E; contradiction].
    apply split_once_some in E. destruct E as [-> Hn].
    unfold lines in Hl. rewrite split_on_app in Hl by auto. pose proof (split_on_nonempty 10 b) as Hb.
    destruct (split_on 10 b) as [|p ps] eqn:Eb; [contradiction|].
    change (length (strip_cr a :: lines_go (p :: ps)) = 1%nat) in Hl. cbn [length] in Hl.
    destruct ps as [|p' ps].
    - cbn [lines_go] in Hl. destruct p as [|x p]; [|discriminate].
      pose proof (join_split 10 b) as Ej. rewrite Eb in Ej. cbn in Ej. subst b.
      destruct Ht as [_ Ht]. specialize (Ht 10 a eq_refl). discriminate Ht.
    - cbn [lines_go] in Hl. discriminate.
  Qed.

  Lemma prefix_inv content parts : prefix_new lower content = POk parts ->
    exists d, parts = split_on 92 d /\ prefix_value d.
  Proof.
    unfold prefix_new. cbv zeta. intro H. pose proof (trim_trimmed content) as Ht.
    destruct (trim content) as [|c0 c] eqn:Ec; [discriminate|]. rewrite <- Ec in *.
    destruct (contains 47 (trim content)) eqn:E47; [discriminate|]. apply contains_false in E47.
    destruct ((length (lines (trim content)) =? 1)%nat && negb (contains 61 (trim content))) eqn:E1.
    - destruct (starts_backslash (trim content)) eqn:Eb; [discriminate|].
      exists (trim content). split; [congruence|]. split; [auto|]. split; [auto|]. split.
      + apply one_line_no_newline; [auto|]. apply andb_prop in E1. destruct E1 as [E1 _]. now apply Nat.eqb_eq.
      + intros r Er. assert (starts_backslash (trim content) = true) by (apply starts_backslash_spec; eauto). congruence.
    - eapply prefix_lines_inv; [|exact H]. intros l Hl. destruct (lines_in _ _ Hl) as [A B]. split; [auto|].
      intro Hi. apply E47. auto.
  Qed.

  Lemma prefix_of_value d : prefix_value d ->
    (prefix_new lower d = POk (split_on 92 d) <-> d <> [] /\ ~ In 61 d).
  Proof.
    intros (Ht & H47 & H10 & Hb). unfold prefix_new. cbv zeta. rewrite trim_fixed by auto.
    destruct d as [|x d'].
    { split; [discriminate|]. intros [H _]. contradiction. }
    remember (x :: d') as d eqn:Ed.
    assert (Hd : match d with [] => @PErr | _ => @PErr end = @PErr) by (destruct d; reflexivity). clear Hd.
    assert (Hne : d <> []) by (subst; discriminate).
    assert (E47 : contains 47 d = false) by now apply contains_false.
    assert (El : lines d = [d]) by now apply lines_single.
    assert (Eb : starts_backslash d = false).
    { destruct (starts_backslash d) eqn:E; [|reflexivity]. apply starts_backslash_spec in E. destruct E as [r Er].
      exfalso. now apply (Hb r). }
    assert (G : (if contains 47 d then PErr (PInvalid d)
        else if (length (lines d) =? 1)%nat && negb (contains 61 d) then
          if starts_backslash d then PErr (PInvalid d) else POk (split_on 92 d)
        else prefix_lines lower d (lines d)) = POk (split_on 92 d) <-> ~ In 61 d).
    { rewrite E47, El, Eb. cbn [length Nat.eqb andb]. destruct (contains 61 d) eqn:E61; cbn [negb].
      - apply contains_spec in E61. split; [|intro H; contradiction]. intro H. exfalso.
        cbn [prefix_lines] in H. destruct (split_once 61 d) as [[k v]|] eqn:Es; [|discriminate].
        destruct (eqb_bytes _ _); [|discriminate]. destruct (starts_backslash (trim v)); [discriminate|].
        assert (E : split_on 92 (trim v) = split_on 92 d) by congruence.
        apply (f_equal (join [92])) in E. rewrite !join_split in E.
        apply split_once_some in Es. destruct Es as [Es _].
        destruct (trim_decompose v) as (w1 & w2 & Ev & _). rewrite E in Ev.
        apply (f_equal (@length N)) in Ev. apply (f_equal (@length N)) in Es.
        rewrite !app_length in *. cbn [length] in Es. lia.
      - apply contains_false in E61. tauto. }
    subst d. rewrite G. intuition discriminate.
  Qed.
End Prefix.

(** ** Script versions *)
Notation sl := (bs "//").
Lemma slash_none s : split_once_str sl s = None <-> forall u v, s <> u ++ sl ++ v.
Proof.
  induction s as [|c r IH].
  - cbn. split; [|reflexivity]. intros _ u v. destruct u; discriminate.
  - cbn [split_once_str]. destruct (starts_with sl (c :: r)) eqn:E.
    + split; [discriminate|]. intro H. exfalso. apply starts_with_spec in E. destruct E as [x E]. apply (H [] x). exact E.
    + destruct (split_once_str sl r) as [[a b]|].
      * split; [discriminate|]. intro H. exfalso. destruct IH as [_ IH]. discriminate IH.
        intros u v E'. apply (H (c :: u) v). cbn [app]. now rewrite E'.
      * split; [|reflexivity]. intros _ u v E'. destruct u as [|y u].
        -- assert (starts_with sl (c :: r) = true) by (apply starts_with_spec; eauto). congruence.
        -- cbn [app] in E'. injection E' as _ E'. destruct IH as [IH _]. apply (IH eq_refl u v). exact E'.
Qed.

Lemma slash_some s a b : split_once_str sl s = Some (a, b) <->
  s = a ++ sl ++ b /\ forall u v, a ++ bs "/" <> u ++ sl ++ v.
Proof.
  revert a b. induction s as [|c r IH]; intros a b.
  - cbn. split; [discriminate|]. intros [H _]. destruct a; discriminate.
  - cbn [split_once_str]. destruct (starts_with sl (c :: r)) eqn:E.
    + apply starts_with_spec in E. destruct E as [x E]. rewrite E. change (skipn (length sl) (sl ++ x)) with x. split.
      * intro H. injection H as <- <-. split; [reflexivity|]. intros [|y u] v; cbn; [discriminate|]. destruct u; discriminate.
      * intros [H Hn]. destruct a as [|y a].
        -- cbn [app] in H. apply app_inv_head in H. now subst.
        -- exfalso. cbn [app] in H. change (sl ++ x) with (47 :: 47 :: x) in H. injection H as <- H.
           destruct a as [|z a].
           ++ apply (Hn [] []). reflexivity.
           ++ cbn [app] in H. injection H as <- H. apply (Hn [] (a ++ bs "/")). reflexivity.
    + assert (Hns : forall u, c :: r <> sl ++ u).
      { intros u Eu. assert (starts_with sl (c :: r) = true) by (apply starts_with_spec; eauto). congruence. }
      destruct (split_once_str sl r) as [[a' b']|] eqn:Er.
      * split.
        -- intro H. injection H as <- <-. destruct (proj1 (IH a' b') eq_refl) as [Ea Hn]. split; [cbn [app]; now rewrite Ea|].
           intros u v H. destruct u as [|y u].
           ++ cbn [app] in H. rewrite Ea in Hns. destruct a' as [|z a'].
              ** cbn in H. injection H as -> _. apply (Hns (47 :: b')). reflexivity.
              ** cbn in H. injection H as -> -> H. apply (Hns (a' ++ sl ++ b')). reflexivity.
           ++ cbn [app] in H. injection H as _ H. now apply (Hn u v).
        -- intros [H Hn]. destruct a as [|y a]; [exfalso; apply (Hns b); exact H|]. cbn [app] in H. injection H as <- H.
           assert (Hn' : forall u v, a ++ bs "/" <> u ++ sl ++ v).
           { intros u v Eu. apply (Hn (c :: u) v). cbn [app]. now rewrite Eu. }
           pose proof (proj2 (IH a b) (conj H Hn')) as E2. congruence.
      * split; [discriminate|]. intros [H Hn]. destruct a as [|y a]; [exfalso; apply (Hns b); exact H|]. cbn [app] in H. injection H as <- H.
        assert (Hn' : forall u v, a ++ bs "/" <> u ++ sl ++ v).
        { intros u v Eu. apply (Hn (c :: u) v). cbn [app]. now rewrite Eu. }
        pose proof (proj2 (IH a b) (conj H Hn')) as E2. congruence.
Qed.

Lemma code_of_spec line code :
  code_of line code <-> code = match split_once_str sl line with Some (a, _) => a | None => line end.
Proof.
  unfold code_of. destruct (split_once_str sl line) as [[a b]|] eqn:E.
  - split.
    + intros [(c & H1 & H2)|[-> H]].
      * pose proof (proj2 (slash_some line code c) (conj H1 H2)). congruence.
      * apply slash_none in H. congruence.
    + intros ->. left. exists b. now apply slash_some.
  - split.
    + intros [(c & H1 & H2)|[-> H]]; [|reflexivity].
      pose proof (proj2 (slash_some line code c) (conj H1 H2)). congruence.
    + intros ->. right. split; [reflexivity|]. now apply slash_none.
Qed.

Lemma rsplit_once_some c s a b : rsplit_once c s = Some (a, b) <-> s = a ++ c :: b /\ ~ In c b.
Proof.
  unfold rsplit_once. destruct (split_once c (rev s)) as [[x y]|] eqn:E.
  - apply split_once_some in E. destruct E as [E Hn].
    assert (Es : s = rev y ++ c :: rev x).
    { rewrite <- (rev_involutive s), E, rev_app_distr. cbn. now rewrite <- app_assoc. }
    split.
    + intro H. injection H as <- <-. split; [auto|]. now rewrite <- in_rev.
    + intros [H Hb]. rewrite H in E. rewrite rev_app_distr in E. cbn in E. rewrite <- app_assoc in E. cbn in E.
      assert (Hr : split_once c (rev b ++ c :: rev a) = Some (rev b, rev a))
        by (apply split_once_some; split; [reflexivity|now rewrite <- in_rev]).
      assert (Hr' : split_once c (x ++ c :: y) = Some (x, y)) by (apply split_once_some; auto).
      rewrite <- E in Hr'. rewrite Hr in Hr'. injection Hr' as <- <-. now rewrite !rev_involutive.
  - apply split_once_none in E. split; [discriminate|]. intros [-> _]. exfalso. apply E.
    rewrite <- in_rev. apply in_or_app. right. now left.
Qed.

Lemma find_first {A} (f : A -> bool) l x : find f l = Some x <->
  exists a b, l = a ++ x :: b /\ f x = true /\ Forall (fun y => f y = false) a.
Proof.
  induction l as [|y l IH]; cbn.
  - split; [discriminate|]. intros (a & b & H & _). destruct a; discriminate.
  - destruct (f y) eqn:E.
    + split.
      * intro H. apply Some_inj in H. subst. exists [], l. auto.
      * intros (a & b & H & Hx & Ha). destruct a as [|z a]; cbn in H; [congruence|].
        injection H as <- H. inversion Ha; subst. congruence.
    + rewrite IH. split.
      * intros (a & b & -> & Hx & Ha). exists (y :: a), b. auto.
      * intros (a & b & H & Hx & Ha). destruct a as [|z a]; cbn in H; injection H as -> H; [congruence|].
        inversion Ha; subst. eauto.
Qed.

Lemma extract_spec s name e n : extract_version (map trim (lines s)) name e = inl n <-> defines s name n.
Proof.
  unfold extract_version, defines.
  assert (SW : forall l, starts_with (bs "#define " ++ name) l = true <-> exists r, l = bs "#define " ++ name ++ r).
  { intro l. rewrite starts_with_spec. split; intros [r H]; exists r; rewrite H; now rewrite <- ?app_assoc. }
  assert (SWF : forall l, starts_with (bs "#define " ++ name) l = false <-> forall r, l <> bs "#define " ++ name ++ r).
  { intro l. split.
    - intros H r Er. assert (starts_with (bs "#define " ++ name) l = true) by (apply SW; eauto). congruence.
    - intro H. destruct (starts_with (bs "#define " ++ name) l) eqn:E; [|reflexivity].
      apply SW in E. destruct E as [r Er]. exfalso. now apply (H r). }
  split.
  - intro H. destruct (find _ _) as [tl|] eqn:E; [|discriminate].
    apply find_first in E. destruct E as (a & b & El & Hs & Ha).
    apply map_eq_app in El. destruct El as (la & lb & El & <- & E2).
    destruct lb as [|line lb]; [discriminate|]. cbn [map] in E2. injection E2 as <- <-.
    cbv zeta in H. set (code := match split_once_str sl (trim line) with Some (a, _) => a | None => trim line end) in *.
    destruct (rsplit_once 32 (trim code)) as [[pre num]|] eqn:Er; [|discriminate].
    apply rsplit_once_some in Er. destruct Er as [Er Hn].
    destruct (parse_u32 num) as [k|] eqn:Ep; [|discriminate]. injection H as ->. apply parse_u32_component in Ep.
    exists la, line, lb, code, pre, num. split; [auto|]. split.
    { rewrite Forall_map in Ha. eapply Forall_impl; [|exact Ha]. cbn. intros l Hl. now apply SWF. }
    split; [now apply SW|]. split; [now apply code_of_spec|]. auto.
  - intros (la & line & lb & code & pre & num & El & Ha & Hs & Hc & Et & Hn & Hp).
    assert (E : find (starts_with (bs "#define " ++ name)) (map trim (lines s)) = Some (trim line)).
    { apply find_first. exists (map trim la), (map trim lb). split; [rewrite El, map_app; reflexivity|].
      split; [now apply SW|]. rewrite Forall_map. eapply Forall_impl; [|exact Ha]. cbn. intros l Hl. now apply SWF. }
    rewrite E. cbv zeta. apply code_of_spec in Hc. rewrite <- Hc.
    assert (Er : rsplit_once 32 (trim code) = Some (pre, num)) by (apply rsplit_once_some; auto).
    rewrite Er. apply parse_u32_component in Hp. now rewrite Hp.
Qed.
