(** C19-C22, C44: arithmetic, versions and prefixes. *)
From Coq Require Import String.
From Verif Require Import Base.Tactics Base.Bytes Base.Ascii Base.Text
  Common.MathModel Common.MathSpec Common.MathProofs Common.VersionModel Common.VersionSpec Common.VersionProofs.
Local Open Scope N_scope.

(** C19. Whatever the number type, its parser and its operators: a text that spells (with any spacing) an
    expression of the usual grammar evaluates to that expression's value. *)
Theorem C19_eval_follows_grammar :
  forall (F : Type) (parse : text -> option F) (arith : N -> F -> F -> F) symbols t v,
  sum F parse arith false symbols v -> spelled symbols t -> eval F parse arith t = Some v.
Proof. exact eval_grammar. Qed.
Print Assumptions C19_eval_follows_grammar.

(** Integer arithmetic, for examples. *)
Definition zparse (t : text) : option Z :=
  match t with
  | 45 :: r => match r with [] => None | _ => option_map (fun n => (- Z.of_N n)%Z) (digits_val 0 r) end
  | [] => None
  | _ => option_map Z.of_N (digits_val 0 t)
  end.
Definition zarith (c : N) (x y : Z) : Z :=
  match c with 43 => (x + y)%Z | 45 => (x - y)%Z | 42 => (x * y)%Z | 47 => Z.quot x y | 37 => Z.rem x y | _ => (x ^ y)%Z end.

(** Texts outside the grammar are not all rejected, and a leading minus is. *)
Theorem C19_outside_the_grammar_refuted :
  eval Z zparse zarith (bs "1 2") = Some 2%Z /\ eval Z zparse zarith (bs "1 2 +") = Some 3%Z /\
  eval Z zparse zarith (bs "(-1)") = Some (-1)%Z /\ eval Z zparse zarith (bs "-1") = None.
Proof. repeat split; vm_compute; reflexivity. Qed.
Print Assumptions C19_outside_the_grammar_refuted.

Example C19_example :
  exists ss, sum Z zparse zarith false ss 13%Z /\ spelled ss (bs "( 1 +2)* -2 ^2 - 2^3^0+3").
Proof.
  exists (((([Open] ++ ([Num false (bs "1")] ++ Op 43 :: [Num false (bs "2")]) ++ [Close]) ++ Op 42 :: ([Num true (bs "2")] ++ Op 94 :: [Num false (bs "2")]))
    ++ Op 45 :: ([Num false (bs "2")] ++ Op 94 :: ([Num false (bs "3")] ++ Op 94 :: [Num false (bs "0")]))) ++ Op 43 :: [Num false (bs "3")]).
  assert (A : forall b neg s v, (neg = true -> b = true) -> s <> [] ->
      forallb (fun c => is_digit c) (s) = true -> zparse (numeral neg (s)) = Some v -> atom Z zparse zarith b [Num neg s] v).
  { intros b neg s v H1 H2 H3 H4. apply atom_num; auto. rewrite forallb_forall in H3. apply Forall_forall.
    intros c Hc. specialize (H3 c Hc). unfold is_digit in H3. left. lia. }
  split.
  - change 13%Z with (zarith 43 (zarith 45 (zarith 42 (zarith 43 1 2) (zarith 94 (-2) 2)) (zarith 94 2 (zarith 94 3 0))) 3)%Z.
    apply sum_op; [cbn; tauto| |].
    + apply sum_op; [cbn; tauto| |].
      * apply sum_product. apply product_op; [cbn; tauto| |].
        -- apply product_power, power_atom. apply (atom_paren _ _ _ false ([Num false (bs "1")] ++ Op 43 :: [Num false (bs "2")])).  
           apply sum_op; [cbn; tauto|apply sum_product, product_power, power_atom|apply product_power, power_atom];
             apply A; try discriminate; reflexivity.
        -- apply power_op; [|apply power_atom]; apply A; try discriminate; reflexivity.
      * apply product_power. apply power_op; [|apply power_op; [|apply power_atom]]; apply A; try discriminate; reflexivity.
    + apply product_power, power_atom. apply A; try discriminate; reflexivity.
  - cbn [app].
    repeat match goal with
    | |- spelled (?s :: ?ss) ?t =>
        first [ apply (spelled_sym 0 s ss) | apply (spelled_sym 1 s ss) ]; cbn
    end.
    apply (spelled_end 0).
Qed.

(** C20. Exactly the texts described by [version_text] are accepted, with exactly those components; and
    printing then parsing gives the version back if and only if its hash contains no dash. *)
Theorem C20_version_text_exact : forall s v, try_from s = VOk v <-> version_text s v.
Proof. intros s v. split; [apply try_from_sound|apply try_from_complete]. Qed.
Print Assumptions C20_version_text_exact.

Theorem C20_version_roundtrip : forall v, u32_fields v ->
  (try_from (display v) = VOk v <-> forall h, hash v = Some h -> ~ In 45 h).
Proof. exact display_roundtrip. Qed.
Print Assumptions C20_version_roundtrip.

(** What was parsed prints to a text that parses to the same version. *)
Theorem C20_parse_print_parse : forall s v, try_from s = VOk v -> try_from (display v) = VOk v.
Proof.
  intros s v H. apply try_from_sound, version_text_fields in H. destruct H as [H1 H2]. now apply display_roundtrip.
Qed.
Print Assumptions C20_parse_print_parse.

Example C20_example :
  try_from (bs "1.10.+1.7.99-local-debug") = VOk (Version 1 10 1 (Some 7) (Some (bs "local"))) /\
  display (Version 1 10 1 (Some 7) (Some (bs "local"))) = bs "1.10.1.7-local" /\
  u32_fields (Version 1 10 1 (Some 7) (Some (bs "local"))).
Proof.
  split; [vm_compute; reflexivity|]. split; [vm_compute; reflexivity|].
  repeat split; cbn; try lia. intros b H. apply Some_inj in H. subst. lia.
Qed.

(** C21. Comparison is the lexicographic order, total, transitive, and blind to the hash. *)
Theorem C21_version_order :
  (forall a b, compare a b = Lt <-> version_lt a b) /\
  (forall a b, compare a b = Gt <-> version_lt b a) /\
  (forall a b, compare a b = Eq <-> same_numbers a b) /\
  (forall a b c, compare a b <> Gt -> compare b c <> Gt -> compare a c <> Gt).
Proof.
  assert (G : forall a b, compare a b = Gt <-> version_lt b a).
  { intros a b. rewrite <- compare_lt, compare_antisym. destruct (compare b a); cbn; split; congruence. }
  split; [exact compare_lt|]. split; [exact G|]. split; [exact compare_eq|].
  intros a b c H1 H2 H3. apply G in H3.
  assert (L : forall x y, compare x y <> Gt -> version_lt x y \/ same_numbers x y).
  { intros x y H. destruct (compare x y) eqn:E; [right; now apply compare_eq|left; now apply compare_lt|contradiction]. }
  destruct (L _ _ H1) as [K1|K1], (L _ _ H2) as [K2|K2].
  - apply H2, G. now apply version_lt_trans with a.
  - apply H1, G. destruct K2 as (A & B & C & D).
    destruct H3 as [H3|? H3|? ? H3|? ? ? H3];
      [apply lt_major|apply lt_minor|apply lt_patch|apply lt_build]; try congruence; try lia.
  - apply H2, G. destruct K1 as (A & B & C & D).
    destruct H3 as [H3|? H3|? ? H3|? ? ? H3];
      [apply lt_major|apply lt_minor|apply lt_patch|apply lt_build]; try congruence; try lia.
  - destruct K1 as (A & B & C & D), K2 as (A' & B' & C' & D').
    destruct H3 as [H3|? H3|? ? H3|? ? ? H3]; try lia.
    rewrite D, D' in H3. inversion H3; subst; try congruence. lia.
Qed.
Print Assumptions C21_version_order.

Theorem C21_equal_but_not_eq_refuted :
  exists a b, compare a b = Eq /\ a <> b /\ try_from (bs "1.2.3-a") = VOk a /\ try_from (bs "1.2.3-b") = VOk b.
Proof.
  exists (Version 1 2 3 None (Some (bs "a"))), (Version 1 2 3 None (Some (bs "b"))).
  split; [reflexivity|]. split; [discriminate|]. split; vm_compute; reflexivity.
Qed.
Print Assumptions C21_equal_but_not_eq_refuted.

(** C22. An accepted prefix has at least one part, contains no forward slash and no line break, does not
    start with a backslash; and its display form parses to the same prefix exactly when it is not empty
    and contains no equals sign. *)
Theorem C22_prefix_stable :
  forall lower content parts, prefix_new lower content = POk parts ->
  parts <> [] /\ ~ In 47 (prefix_display parts) /\ ~ In 10 (prefix_display parts) /\
  (forall r, prefix_display parts <> 92 :: r) /\
  (prefix_new lower (prefix_display parts) = POk parts <->
     prefix_display parts <> [] /\ ~ In 61 (prefix_display parts)).
Proof.
  intros lower content parts H. destruct (prefix_inv lower content parts H) as (d & -> & Hd).
  unfold prefix_display. rewrite join_split. split; [apply split_on_nonempty|].
  pose proof Hd as (_ & H1 & H2 & H3). split; [exact H1|]. split; [exact H2|]. split; [exact H3|]. now apply prefix_of_value.
Qed.
Print Assumptions C22_prefix_stable.

Theorem C22_unstable_prefixes_refuted :
  prefix_new ascii_lower (bs "prefix=") = POk [[]] /\ prefix_new ascii_lower [] = PErr PEmpty /\
  prefix_new ascii_lower (bs "prefix=prefix=z") = POk [bs "prefix=z"] /\
  prefix_new ascii_lower (bs "prefix=z") = POk [bs "z"].
Proof. repeat split; vm_compute; reflexivity. Qed.
Print Assumptions C22_unstable_prefixes_refuted.

Example C22_example : prefix_new ascii_lower (bs "  author = x " ++ [13; 10] ++ bs " PREFIX = z\mod\addons\main ") =
  POk [bs "z"; bs "mod"; bs "addons"; bs "main"].
Proof. vm_compute. reflexivity. Qed.

(** C44. A script_version file gives exactly the numbers of the first matching define line of each name. *)
Theorem C44_script_version_exact :
  forall s v, try_from_script_version s = VOk v <->
  defines s (bs "MAJOR") (major v) /\ defines s (bs "MINOR") (minor v) /\ defines s (bs "PATCH") (patch v) /\
  (forall b, build v = Some b <-> defines s (bs "BUILD") b) /\ hash v = None.
Proof.
  intros s v. unfold try_from_script_version. cbv zeta.
  rewrite <- (extract_spec s (bs "MAJOR") ExpectedMajor), <- (extract_spec s (bs "MINOR") ExpectedMinor), <- (extract_spec s (bs "PATCH") ExpectedPatch).
  split.
  - destruct (extract_version _ (bs "MAJOR") ExpectedMajor) as [ma|e]; [|discriminate].
    destruct (extract_version _ (bs "MINOR") ExpectedMinor) as [mi|e]; [|discriminate].
    destruct (extract_version _ (bs "PATCH") ExpectedPatch) as [pa|e]; [|discriminate].
    remember (extract_version (map trim (lines s)) (bs "BUILD") ExpectedBuild) as xb eqn:Exb. symmetry in Exb.
    intro H. injection H as <-. cbn [major minor patch build hash]. repeat split; auto.
    + intro Hb. apply (extract_spec s (bs "BUILD") ExpectedBuild). destruct xb; congruence.
    + intro Hb. apply (extract_spec s (bs "BUILD") ExpectedBuild) in Hb. rewrite Exb in Hb. now rewrite Hb.
  - intros (H1 & H2 & H3 & H4 & H5). rewrite H1, H2, H3. f_equal. destruct v as [ma mi pa b h].
    cbn [major minor patch build hash] in *. subst h. f_equal.
    destruct (extract_version (map trim (lines s)) (bs "BUILD") ExpectedBuild) as [b'|e] eqn:E.
    + symmetry. apply H4. now apply extract_spec in E.
    + destruct b as [b|]; [|reflexivity]. exfalso.
      pose proof (proj2 (extract_spec s (bs "BUILD") ExpectedBuild b) (proj1 (H4 b) eq_refl)). congruence.
Qed.
Print Assumptions C44_script_version_exact.

(** The name is matched as a prefix: an earlier, longer name is taken instead. *)
Theorem C44_longer_name_refuted :
  exists s v, try_from_script_version s = VOk v /\ minor v = 1 /\
    s = bs "#define MAJOR 3" ++ [10] ++ bs "#define MINOR_OLD 1" ++ [10] ++ bs "#define MINOR 2" ++ [10] ++ bs "#define PATCHLVL 5 // x".
Proof. eexists. eexists. split; [|split; [|reflexivity]]; vm_compute; reflexivity. Qed.
Print Assumptions C44_longer_name_refuted.
