(** C45: texts that are not quite of the grammar and are still understood, to be reported later (C62, C64). *)
From Coq Require Import String.
From Verif Require Import Base.Tactics Base.Bytes Base.Ascii Base.Text Config.RapModel Config.ParseModel Config.ParseSpec Config.GrammarSpec
  Config.ParseProofs Config.GrammarProofs Config.ParseProps.
Local Open Scope N_scope.

Section Params.
  Context (f32_parse : text -> option N) (f32_show : N -> text) (try_eval : text -> option number).

  Lemma missing_ok f w1 n w2 v1 p v2 q : name n -> name p -> blank w1 -> blank w2 -> blank v1 -> blank v2 ->
    cls_p f32_parse f32_show try_eval f (bs "class " ++ w1 ++ n ++ w2 ++ bs ":" ++ v1 ++ p ++ v2 ++ bs ";" ++ q) = POk (Local n (Some p) [] true) (bs ";" ++ q).
  Proof.
    intros Hn Hp H1 H2 G1 G2.
    assert (HC : class_head (bs "class " ++ w1 ++ n ++ w2 ++ bs ":" ++ v1 ++ p ++ v2 ++ bs ";" ++ q) = POk n (bs ":" ++ v1 ++ p ++ v2 ++ bs ";" ++ q))
      by (apply class_head_ok; [auto|auto|auto|apply solid_cons; reflexivity|apply cons_no_ident; reflexivity]).
    assert (HP : class_parent_p (bs ":" ++ v1 ++ p ++ v2 ++ bs ";" ++ q) = POk p (bs ";" ++ q)).
    { unfold class_parent_p. unfold pbind at 1.
      pose proof (padded_just [] (bs ":") v1 (p ++ v2 ++ bs ";" ++ q) ltac:(constructor)
        ltac:(apply solid_cons; reflexivity) ltac:(discriminate) G1 ltac:(now apply name_solid)) as E. rewrite app_nil_l in E.
      rewrite E. rewrite padded_ident; [reflexivity|auto|auto|apply solid_cons; reflexivity|apply cons_no_ident; reflexivity]. }
    remember (bs "class " ++ w1 ++ n ++ w2 ++ bs ":" ++ v1 ++ p ++ v2 ++ bs ";" ++ q) as s eqn:Es.
    assert (Hs : solid s) by (subst s; apply solid_cons; reflexivity).
    assert (L1 : local_p f32_parse f32_show try_eval f s = PErr).
    { unfold local_p. unfold pbind at 1. unfold padded at 1. rewrite (trim_solid s) by exact Hs. unfold pbind at 1. rewrite HC.
      unfold pbind at 1. unfold or_not. rewrite HP. unfold pret at 1. rewrite trim_solid by (apply solid_cons; reflexivity).
      reflexivity. }
    assert (L2 : class_missing s = POk (Local n (Some p) [] true) (bs ";" ++ q)).
    { unfold class_missing, padded at 1. rewrite (trim_solid s) by exact Hs. unfold pbind. rewrite HC, HP. unfold pret.
      rewrite trim_solid by (apply solid_cons; reflexivity). reflexivity. }
    unfold cls_p, alt. now rewrite L1, L2.
  Qed.

  (** A class with a parent and no braces is understood as one without content whose braces are missing, wherever it stands
      before other properties. *)
  Theorem C45_missing_braces : forall w1 n w2 v1 p v2 w c u, name n -> name p ->
    blank w1 -> blank w2 -> blank v1 -> blank v2 -> blank w ->
    properties_text (denotes f32_parse) (kept f32_show try_eval) c u ->
    parse_config f32_parse f32_show try_eval (bs "class " ++ w1 ++ n ++ w2 ++ bs ":" ++ v1 ++ p ++ v2 ++ bs ";" ++ w ++ u) =
      POk (PClass (Local n (Some p) [] true) :: c) [].
  Proof.
    intros w1 n w2 v1 p v2 w c u Hn Hp H1 H2 G1 G2 Hw Hu.
    set (s := bs "class " ++ w1 ++ n ++ w2 ++ bs ":" ++ v1 ++ p ++ v2 ++ bs ";" ++ w ++ u).
    assert (Ls : (length u + 1 < length s)%nat).
    { unfold s. rewrite !app_length. cbn [length bs]. change (length (bs "class ")) with 6%nat. change (length (bs ":")) with 1%nat. change (length (bs ";")) with 1%nat. lia. }
    assert (Hs : solid s) by (apply solid_cons; reflexivity).
    assert (Su : solid u).
    { rewrite <- (app_nil_r u). eapply properties_solid; [exact Hu|]. intros ? ? E. discriminate. }
    assert (P1 : padded (property_p f32_parse f32_show try_eval (S (length s))) s = POk (PClass (Local n (Some p) [] true)) u).
    { unfold padded. rewrite (trim_solid s) by exact Hs.
      rewrite (finish f32_parse f32_show try_eval (length s) (PClass (Local n (Some p) [] true)) s [] (w ++ u)).
      - rewrite trim_blank by auto. now rewrite trim_solid by auto.
      - cbn [app]. eapply (class_first f32_parse f32_show try_eval); [reflexivity|]. unfold s. now apply missing_ok.
      - constructor. }
    unfold parse_config, alt, at_end. unfold pbind at 1. cbn [repeated]. rewrite P1.
    destruct (proj2 (proj2 (properties_all f32_parse f32_show try_eval) c u Hu) (S (length s)) (length s) [] []) as (r' & E1 & E2 & E3);
      [lia|lia|constructor|auto|]. cbn [app] in E1. rewrite app_nil_r in E1. rewrite E1.
    destruct c as [|p0 c]; [|rewrite E3 by discriminate; reflexivity].
    inversion Hu; subst. destruct (length s) as [|k]; [lia|]. cbn [repeated] in E1.
    destruct r' as [|x r']; [reflexivity|]. exfalso. cbn [padded] in E1.
    destruct (padded (property_p f32_parse f32_show try_eval (S (S k))) []) as [a q| | | |] eqn:EE; try discriminate.
  Qed.
  Lemma not_semicolon c u : properties_text (denotes f32_parse) (kept f32_show try_eval) c u -> forall x r, u = x :: r -> is_ws x = false /\ x <> 59.
  Proof.
    intros H x r E. pose proof (properties_solid f32_parse f32_show try_eval c u [] H ltac:(intros ? ? E'; discriminate)) as S. rewrite app_nil_r in S.
    split; [exact (S x r E)|]. intros ->.
    assert (K : forall n v, name n -> n ++ v = 59 :: r -> False).
    { intros n v [Hne Hf] E'. destruct n as [|y n]; [contradiction|]. apply Forall_inv in Hf. injection E' as -> _. lia. }
    inversion H as [|p t w ps u' Hp Hw Hu]; subst; [discriminate|].
    destruct Hp; try discriminate; match goal with H : (_ ++ _) ++ _ = _ |- _ => rewrite <- app_assoc in H; eapply K in H; eauto end.
  Qed.
  Lemma no_semicolon w c u : blank w -> properties_text (denotes f32_parse) (kept f32_show try_eval) c u ->
    or_not (padded (just (bs ";"))) (w ++ u) = POk None (w ++ u).
  Proof.
    intros Hw H. pose proof (not_semicolon c u H) as K. unfold or_not. destruct u as [|x u].
    - rewrite app_nil_r. unfold padded. pose proof (trim_blank w [] Hw ltac:(intros ? ? E; discriminate)) as E. rewrite app_nil_r in E. rewrite E. reflexivity.
    - destruct (K x u eq_refl) as [K1 K2]. rewrite padded_miss; [reflexivity|auto|auto|discriminate|]. intros k' E. injection E as E _. congruence.
  Qed.

  (** A class whose semicolon is missing is understood as that, and what follows it is not lost. *)
  Theorem C45_missing_semicolon : forall w1 n w2 parent ps w3 t w c u, name n -> blank w1 -> blank w2 -> blank w3 -> blank w ->
    (parent = [] \/ exists v1 p v2, parent = bs ":" ++ v1 ++ p ++ v2 /\ blank v1 /\ name p /\ blank v2) ->
    properties_text (denotes f32_parse) (kept f32_show try_eval) ps t ->
    properties_text (denotes f32_parse) (kept f32_show try_eval) c u ->
    parse_config f32_parse f32_show try_eval (bs "class " ++ w1 ++ n ++ w2 ++ parent ++ bs "{" ++ w3 ++ t ++ bs "}" ++ w ++ u) =
      POk (MissingSemicolon n :: c) [].
  Proof.
    intros w1 n w2 parent ps w3 t w c u Hn H1 H2 H3 Hw Hp Ht Hu.
    set (s := bs "class " ++ w1 ++ n ++ w2 ++ parent ++ bs "{" ++ w3 ++ t ++ bs "}" ++ w ++ u).
    assert (Ls : (length t + length u + 1 < length s)%nat).
    { unfold s. rewrite !app_length. change (length (bs "class ")) with 6%nat. lia. }
    assert (Hs : solid s) by (apply solid_cons; reflexivity).
    assert (Su : solid u).
    { rewrite <- (app_nil_r u). eapply properties_solid; [exact Hu|]. intros ? ? E. discriminate. }
    pose proof (proj2 (proj2 (properties_all f32_parse f32_show try_eval) ps t Ht)) as HP.
    assert (C : exists cl, cls_p f32_parse f32_show try_eval (length s) s = POk cl (w ++ u) /\ parsed_name (PClass cl) = n).
    { destruct Hp as [->|(v1 & p & v2 & -> & G1 & Np & G2)].
      - eexists. split; [unfold s at 2; cbn [app]; apply local_ok with (ps := ps); auto; lia|reflexivity].
      - eexists. split; [unfold s at 2; rewrite <- !app_assoc; apply sublocal_ok with (ps := ps); auto; lia|reflexivity]. }
    destruct C as (cl & C & Nm).
    assert (P1 : padded (property_p f32_parse f32_show try_eval (S (length s))) s = POk (MissingSemicolon n) u).
    { unfold padded. rewrite (trim_solid s) by exact Hs. rewrite property_eq. unfold pbind at 1.
      erewrite (class_first f32_parse f32_show try_eval); [|reflexivity|exact C]. unfold pbind at 1.
      rewrite (no_semicolon w c u Hw Hu). unfold pret. rewrite Nm. now rewrite trim_blank by auto. }
    unfold parse_config, alt, at_end. unfold pbind at 1. cbn [repeated]. rewrite P1.
    destruct (proj2 (proj2 (properties_all f32_parse f32_show try_eval) c u Hu) (S (length s)) (length s) [] []) as (r' & E1 & E2 & E3);
      [lia|lia|constructor|auto|]. cbn [app] in E1. rewrite app_nil_r in E1. rewrite E1.
    destruct c as [|p0 c]; [|rewrite E3 by discriminate; reflexivity].
    inversion Hu; subst. destruct (length s) as [|k]; [lia|]. cbn [repeated] in E1.
    destruct r' as [|x r']; [reflexivity|]. exfalso. cbn [padded] in E1.
    destruct (padded (property_p f32_parse f32_show try_eval (S (S k))) []) as [a q| | | |] eqn:EE; try discriminate.
  Qed.
End Params.
(** A case. *)
Example missing_case : forall f32_parse f32_show try_eval,
  parse_config f32_parse f32_show try_eval (bs "class Rifle: Base;" ++ [10] ++ bs "class Other;") =
    POk [PClass (Local (bs "Rifle") (Some (bs "Base")) [] true); PClass (External (bs "Other"))] [].
Proof.
  intros.
  assert (N1 : name (bs "Rifle")) by (split; [discriminate|change (bs "Rifle") with [82; 105; 102; 108; 101]; repeat (apply Forall_cons; [lia|]); apply Forall_nil]).
  assert (N2 : name (bs "Base")) by (split; [discriminate|change (bs "Base") with [66; 97; 115; 101]; repeat (apply Forall_cons; [lia|]); apply Forall_nil]).
  assert (N3 : name (bs "Other")) by (split; [discriminate|change (bs "Other") with [79; 116; 104; 101; 114]; repeat (apply Forall_cons; [lia|]); apply Forall_nil]).
  apply (C45_missing_braces f32_parse f32_show try_eval [] (bs "Rifle") [] [32] (bs "Base") [] [10] [PClass (External (bs "Other"))] (bs "class Other;"));
    auto; try (repeat (apply Forall_cons; [reflexivity|]); apply Forall_nil).
  apply (ps_cons _ _ (PClass (External (bs "Other"))) (bs "class Other;") [] [] []); [|apply Forall_nil|apply ps_nil].
  now apply (pt_external _ _ (bs "Other") [] []); try apply Forall_nil.
Qed.
Example semicolon_case : forall f32_parse f32_show try_eval,
  parse_config f32_parse f32_show try_eval (bs "class A: B {class C;} class D;") = POk [MissingSemicolon (bs "A"); PClass (External (bs "D"))] [].
Proof. intros. vm_compute. reflexivity. Qed.
Print Assumptions C45_missing_braces.
Print Assumptions C45_missing_semicolon.

(** A missing [=] is not noticed: a property with brackets has the value that follows, as if it were there. *)
Theorem C45_no_equals_refuted : forall f32_parse f32_show try_eval,
  parse_config f32_parse f32_show try_eval (bs "x[] ""a"";") = POk [Entry (bs "x") (VStr (bs "a")) true] [] /\
  parse_config f32_parse f32_show try_eval (bs "x[] = ""a"";") = POk [Entry (bs "x") (VStr (bs "a")) true] [].
Proof. intros. split; vm_compute; reflexivity. Qed.
Print Assumptions C45_no_equals_refuted.
