(** The parser accepts every text of the grammar and returns the tree it says. *)
From Coq Require Import String.
From Verif Require Import Base.Tactics Base.Bytes Base.Ascii Base.Text Config.RapModel Config.ParseModel
  Config.ParseSpec Config.ParseProofs Config.GrammarSpec.
Local Open Scope N_scope.

Definition solid (r : text) : Prop := forall c r', r = c :: r' -> is_ws c = false.
Definition term (r : text) : Prop := exists c r', r = c :: r' /\ (c = 44 \/ c = 125 \/ c = 59).

Lemma term_solid r : term r -> solid r.
Proof. intros (c & r' & -> & H) c' r'' E. injection E as <- _. destruct H as [->|[->| ->]]; reflexivity. Qed.
Lemma solid_cons c r : is_ws c = false -> solid (c :: r).
Proof. intros H c' r' E. injection E as <- _. exact H. Qed.
Lemma solid_app a b : a <> [] -> solid a -> solid (a ++ b).
Proof. intros Hne H c r E. destruct a as [|x a]; [contradiction|]. cbn in E. injection E as <- _. eapply H. reflexivity. Qed.
Lemma trim_solid r : solid r -> trim_start r = r.
Proof. apply trim_start_nows. Qed.
Lemma trim_blank w r : blank w -> solid r -> trim_start (w ++ r) = r.
Proof. apply trim_start_app. Qed.
Lemma trim_blank_gen w r : blank w -> trim_start (w ++ r) = trim_start r.
Proof. induction 1 as [|c w Hc Hw IH]; cbn [app]; [reflexivity|]. cbn [trim_start]. now rewrite Hc. Qed.

Lemma ends_blank_term w r : blank w -> term r -> number_ends (w ++ r).
Proof.
  intros Hw (c & r' & -> & Hc). destruct w as [|x w]; cbn [app number_ends].
  - lia.
  - inversion Hw as [|? ? Hx]; subst. intro K.
    unfold is_ws in Hx. repeat rewrite orb_true_iff in Hx. repeat rewrite andb_true_iff in Hx.
    repeat rewrite N.eqb_eq in Hx. repeat rewrite N.leb_le in Hx. lia.
Qed.

(** ** Names *)
Lemma name_chars n : name n -> Forall (fun c => ident_char c = true) n.
Proof.
  intros [_ H]. eapply Forall_impl; [|exact H]. intros c Hc. unfold ident_char, is_digit.
  destruct Hc as [[A B]|[[A B]|[[A B]| ->]]]; [| | |reflexivity].
  - apply N.leb_le in A, B. now rewrite A, B.
  - apply N.leb_le in A, B. rewrite A, B. cbn [andb]. now rewrite !orb_true_r.
  - apply N.leb_le in A, B. rewrite A, B. cbn [andb]. now rewrite !orb_true_r.
Qed.
Lemma ident_char_solid c : ident_char c = true -> is_ws c = false.
Proof.
  unfold ident_char, is_digit, is_ws. intro H.
  repeat rewrite orb_true_iff in H. repeat rewrite andb_true_iff in H. repeat rewrite N.leb_le in H. repeat rewrite N.eqb_eq in H.
  repeat rewrite orb_false_iff. repeat rewrite andb_false_iff. repeat rewrite N.leb_gt. repeat rewrite N.eqb_neq. lia.
Qed.
Lemma name_solid n r : name n -> solid (n ++ r).
Proof.
  intro H. pose proof (name_chars n H) as Hc. destruct H as [Hne _]. apply solid_app; [exact Hne|].
  intros c r' ->. inversion Hc; subst. now apply ident_char_solid.
Qed.
Definition no_ident (r : text) : Prop := forall c r', r = c :: r' -> ident_char c = false.
Lemma ident_ok n r : name n -> no_ident r -> ident (n ++ r) = POk n r.
Proof.
  intros Hn Hr. unfold ident, at_least. rewrite repeated_sat; auto using name_chars; [|rewrite app_length; lia].
  destruct Hn as [Hne _]. destruct n; [contradiction|reflexivity].
Qed.
Lemma ident_miss s : no_ident s -> ident s = PErr.
Proof.
  intro H. unfold ident, at_least.
  pose proof (repeated_sat ident_char [] s (S (length s)) ltac:(constructor) H ltac:(cbn; lia)) as K. cbn [app] in K. now rewrite K.
Qed.
Lemma ws_no_ident c : is_ws c = true -> ident_char c = false.
Proof. intro H. destruct (ident_char c) eqn:E; [|reflexivity]. rewrite (ident_char_solid _ E) in H. discriminate. Qed.
Lemma blank_no_ident w r : blank w -> no_ident r -> no_ident (w ++ r).
Proof.
  intros Hw Hr c r' E. destruct w as [|x w]; cbn in E; [eauto|]. injection E as <- _.
  inversion Hw; subst. now apply ws_no_ident.
Qed.
Lemma cons_no_ident c r : ident_char c = false -> no_ident (c :: r).
Proof. intros H c' r' E. injection E as <- _. exact H. Qed.
Lemma padded_ident w n r : name n -> blank w -> solid r -> no_ident r -> padded ident (n ++ w ++ r) = POk n r.
Proof.
  intros Hn Hw Hs Hr. unfold padded. rewrite trim_solid by now apply name_solid.
  rewrite ident_ok by (auto using blank_no_ident). now rewrite trim_blank.
Qed.

Lemma padded_just w1 k w2 r : blank w1 -> solid k -> k <> [] -> blank w2 -> solid r ->
  padded (just k) (w1 ++ k ++ w2 ++ r) = POk tt r.
Proof.
  intros H1 Hk Hne H2 Hr. unfold padded. rewrite trim_blank; [|exact H1|now apply solid_app].
  rewrite just_app. now rewrite trim_blank.
Qed.
Lemma padded_just_gen w1 k w2 r : blank w1 -> solid k -> k <> [] -> blank w2 ->
  padded (just k) (w1 ++ k ++ w2 ++ r) = POk tt (trim_start r).
Proof.
  intros H1 Hk Hne H2. unfold padded. rewrite trim_blank; [|exact H1|now apply solid_app].
  rewrite just_app. now rewrite trim_blank_gen.
Qed.
(** A keyword whose first character differs from the next solid character is refused. *)
Lemma just_miss k c s r : k <> [] -> s = c :: r -> (forall k', k <> c :: k') -> just k s = PErr.
Proof.
  intros Hne -> H. unfold just. destruct k as [|x k]; [contradiction|]. cbn [starts_with].
  destruct (N.eqb_spec x c) as [->|E]; [exfalso; eapply H; reflexivity|reflexivity].
Qed.
Lemma padded_miss k w c r : blank w -> is_ws c = false -> k <> [] -> (forall k', k <> c :: k') ->
  padded (just k) (w ++ c :: r) = PErr.
Proof.
  intros Hw Hc Hne H. unfold padded. rewrite trim_blank by (auto using solid_cons).
  now rewrite (just_miss k c (c :: r) r).
Qed.

Section Params.
  Context (f32_parse : text -> option N) (f32_show : N -> text) (try_eval : text -> option number).
  Let f32 (t : text) (b : N) : Prop := f32_parse t = Some b.
  Let agrees (n : number) : Prop :=
    try_eval (trim (show_number f32_show n)) = Some n \/ try_eval (trim (show_number f32_show n)) = None.

  (** ** Numbers *)
  Lemma digits_all ds : digits ds -> all_digits ds /\ ds <> [].
  Proof.
    intros [H1 H2]. split; [|exact H1]. eapply Forall_impl; [|exact H2]. intros c Hc. cbn beta in Hc. unfold is_digit.
    apply andb_true_intro. split; apply N.leb_le; lia.
  Qed.
  Lemma ends_no_digit rest : number_ends rest -> forall c r, rest = c :: r -> is_digit c = false.
  Proof.
    intros H c r E. destruct (ends_spec _ H c r E) as [A _]. destruct (is_digit c) eqn:E2; [|reflexivity].
    rewrite ident_digit in A by auto. discriminate.
  Qed.
  Lemma ends_no_dot rest : number_ends rest -> just [46] rest = PErr.
  Proof. intro H. apply just1_miss. intros r E. destruct (ends_spec _ H _ _ E) as [_ A]. contradiction. Qed.

  Lemma float_basic_ok ds ds' b rest : digits ds \/ ds = [] -> digits ds' -> f32 (ds ++ bs "." ++ ds') b -> number_ends rest ->
    number_float_exponent f32_parse ((ds ++ bs "." ++ ds') ++ rest) = PErr /\
    number_float_basic f32_parse ((ds ++ bs "." ++ ds') ++ rest) = POk b rest.
  Proof.
    intros Hd Hd' Hb He. apply digits_all in Hd' as [A' N']. pose proof (ends_no_digit _ He) as Hr.
    rewrite <- !app_assoc. change (bs "." ++ ds' ++ rest) with (46 :: ds' ++ rest).
    assert (Hno : forall c r, 46 :: ds' ++ rest = c :: r -> is_digit c = false) by (intros c r E; injection E as <- _; reflexivity).
    destruct Hd as [Hd| ->].
    - apply digits_all in Hd as [A Nn]. split.
      + unfold number_float_exponent, ptry. unfold pbind at 1. unfold or_not. unfold pbind at 1.
        rewrite digits_ok by auto. unfold pbind at 1. rewrite just1_hit. unfold pret at 1.
        unfold pbind at 1. rewrite digits_ok by auto. unfold pbind at 1, one_char, pmap. unfold pbind at 1.
        destruct rest as [|c r]; [reflexivity|]. cbn [sat]. destruct (ends_spec _ He c r eq_refl) as [B _].
        destruct (N.eqb_spec c 101) as [->|]; [discriminate|]. destruct (N.eqb_spec c 69) as [->|]; [discriminate|]. reflexivity.
      + unfold number_float_basic, ptry. unfold pbind at 1. unfold or_not. rewrite digits_ok by auto.
        unfold pbind at 1. rewrite just1_hit. unfold pbind at 1. rewrite digits_ok by auto.
        unfold pret. change (bs ".") with [46] in Hb. rewrite Hb. reflexivity.
    - cbn [app]. split.
      + unfold number_float_exponent, ptry. unfold pbind at 1. unfold or_not. unfold pbind at 1.
        rewrite digits_miss by auto. unfold pbind at 1. rewrite digits_miss by auto. reflexivity.
      + unfold number_float_basic, ptry. unfold pbind at 1. unfold or_not. rewrite digits_miss by auto.
        unfold pbind at 1. rewrite just1_hit. unfold pbind at 1. rewrite digits_ok by auto.
        unfold pret. change (bs ".") with [46] in Hb. cbn [app] in *. rewrite Hb. reflexivity.
  Qed.

  Lemma float_exp_ok ds frac e s x b rest :
    digits ds \/ ds = [] -> digits frac -> In e (bs "eE") -> In s [[]; bs "-"; bs "+"] -> digits x ->
    f32 ((match ds with [] => [] | _ => ds ++ bs "." end) ++ frac ++ [e] ++ s ++ x) b -> number_ends rest ->
    number_float_exponent f32_parse (((match ds with [] => [] | _ => ds ++ bs "." end) ++ frac ++ [e] ++ s ++ x) ++ rest) = POk b rest.
  Proof.
    intros Hd Hf He Hs Hx Hb Hend. apply digits_all in Hf as [Af Nf]. apply digits_all in Hx as [Ax Nx].
    pose proof (ends_no_digit _ Hend) as Hr.
    assert (Ee : ((e =? 101) || (e =? 69)) = true /\ is_digit e = false /\ e <> 46)
      by (destruct He as [<-|[<-|[]]]; repeat split; discriminate).
    destruct Ee as (Ee & Ee2 & Ee3).
    assert (K1 : number_digits (frac ++ [e] ++ s ++ x ++ rest) = POk frac ([e] ++ s ++ x ++ rest)).
    { apply digits_ok; auto. intros c r E. cbn in E. injection E as <- _. exact Ee2. }
    assert (KX : number_digits (x ++ rest) = POk x rest) by now apply digits_ok.
    assert (KS : or_not (one_char (fun c => (c =? 45) || (c =? 43))) (s ++ x ++ rest)
                 = POk (match s with [] => None | _ => Some s end) (x ++ rest)).
    { destruct Hs as [<-|[<-|[<-|[]]]]; [|reflexivity|reflexivity].
      cbn [app]. unfold or_not, one_char, pmap, pbind. destruct x as [|c x]; [contradiction|]. cbn [app sat].
      inversion Ax as [|? ? Hc]; subst.
      destruct (N.eqb_spec c 45) as [->|]; [discriminate|]. destruct (N.eqb_spec c 43) as [->|]; [discriminate|]. reflexivity. }
    assert (KA : or_not (ds0 <-- number_digits ;; _ <-- just [46] ;; pret (ds0 ++ [46]))
        ((match ds with [] => [] | _ => ds ++ bs "." end) ++ frac ++ [e] ++ s ++ x ++ rest)
        = POk (match ds with [] => None | _ => Some (ds ++ [46]) end) (frac ++ [e] ++ s ++ x ++ rest)).
    { unfold or_not, pbind. destruct Hd as [Hd| ->].
      - apply digits_all in Hd as [A Nn]. destruct ds as [|c ds]; [contradiction|].
        rewrite <- app_assoc. change (bs "." ++ frac ++ [e] ++ s ++ x ++ rest) with (46 :: frac ++ [e] ++ s ++ x ++ rest).
        rewrite digits_ok by (first [assumption | intros c0 r E; injection E as <- _; reflexivity]). rewrite just1_hit. reflexivity.
      - rewrite app_nil_l, K1. cbn [app]. rewrite just1_miss; [reflexivity|]. intros r E. injection E as E _. contradiction. }
    replace (((match ds with [] => [] | _ => ds ++ bs "." end) ++ frac ++ [e] ++ s ++ x) ++ rest)
      with ((match ds with [] => [] | _ => ds ++ bs "." end) ++ frac ++ [e] ++ s ++ x ++ rest)
      by (rewrite <- !app_assoc; reflexivity).
    unfold number_float_exponent, ptry. unfold pbind at 1. rewrite KA. unfold pbind at 1. rewrite K1.
    unfold pbind at 1. cbn [app]. unfold one_char at 1, pmap. unfold pbind at 1. cbn [sat]. rewrite Ee.
    unfold pret at 1. unfold pbind at 1. rewrite KS. unfold pbind at 1. rewrite KX. unfold pret.
    change (bs ".") with [46] in Hb.
    replace (match (match ds with [] => None | _ :: _ => Some (ds ++ [46]) end) with Some t => t | None => [] end)
      with (match ds with [] => [] | _ :: _ => ds ++ [46] end) by (destruct ds; reflexivity).
    replace (match (match s with [] => None | _ :: _ => Some s end) with Some t => t | None => [] end) with s by (destruct s; reflexivity).
    unfold f32 in Hb. rewrite Hb. reflexivity.
  Qed.

  Lemma unsigned_no_minus n t rest : unsigned_text f32 n t -> forall r, t ++ rest <> 45 :: r.
  Proof.
    intros H r E.
    assert (D : forall ds u, all_digits ds -> ds <> [] -> ds ++ u <> 45 :: r) by (intros ds u A Nn; now apply digits_no_minus).
    destruct H as [ds v Hs Hne _|ds v Hs Hne _|ds v Hs Hne _|ds v Hs Hne _|ds ds' b Hd Hd' _|ds frac e s x b Hd Hf _ _ _ _].
    - eapply D; [eapply spells_digits10; eauto|eauto|eauto].
    - eapply D; [eapply spells_digits10; eauto|eauto|eauto].
    - discriminate.
    - discriminate.
    - destruct Hd as [Hd| ->]; [|discriminate]. apply digits_all in Hd as [A Nn].
      rewrite <- app_assoc in E. eapply D; eauto.
    - apply digits_all in Hf as [Af Nf]. destruct Hd as [Hd| ->].
      + apply digits_all in Hd as [A Nn]. destruct ds as [|c ds]; [contradiction|].
        rewrite <- !app_assoc in E. eapply (D (c :: ds)); eauto.
      + cbn [app] in E. rewrite <- app_assoc in E. eapply D; eauto.
  Qed.

  Lemma unsigned_ok n t neg rest : unsigned_text f32 n t -> number_ends rest ->
    number_lit f32_parse (sign_text neg ++ t ++ rest) = POk (if neg then minus n else n) rest.
  Proof.
    intros H He. pose proof (unsigned_no_minus n t rest H) as Hm.
    assert (I32 : forall v, v < 2 ^ 31 -> int_result neg v rest = POk (if neg then minus (Int32 (Z.of_N v)) else Int32 (Z.of_N v)) rest).
    { intros v Hv. unfold int_result. destruct (N.leb_spec v 2147483647); [|lia]. destruct neg; reflexivity. }
    assert (I64 : forall v, 2 ^ 31 <= v < 2 ^ 63 -> int_result neg v rest = POk (if neg then minus (Int64 (Z.of_N v)) else Int64 (Z.of_N v)) rest).
    { intros v Hv. unfold int_result. destruct (N.leb_spec v 2147483647); [lia|]. destruct (N.leb_spec v 9223372036854775807); [|lia]. destruct neg; reflexivity. }
    destruct H as [ds v Hs Hne Hv|ds v Hs Hne Hv|ds v Hs Hne Hv|ds v Hs Hne Hv|ds ds' b Hd Hd' Hb|ds frac e s x b Hd Hf Hin Hsg Hx Hb].
    - rewrite (number_int_ok f32_parse neg ds v rest); auto.
    - rewrite (number_int_ok f32_parse neg ds v rest); auto.
    - rewrite <- app_assoc. rewrite (number_hex_ok f32_parse neg ds v rest); auto. now rewrite I32.
    - rewrite <- app_assoc. rewrite (number_hex_ok f32_parse neg ds v rest); auto. now rewrite I64.
    - destruct (float_basic_ok ds ds' b rest Hd Hd' Hb He) as [F1 F2].
      unfold number_lit. unfold pbind at 1. rewrite sign_or_not by exact Hm.
      unfold pbind at 1. unfold alt, pmap. unfold pbind at 1 2. rewrite F1, F2. destruct neg; reflexivity.
    - pose proof (float_exp_ok ds frac e s x b rest Hd Hf Hin Hsg Hx Hb He) as F.
      unfold number_lit. unfold pbind at 1. rewrite sign_or_not by exact Hm.
      unfold pbind at 1. unfold alt, pmap. unfold pbind at 1. rewrite F. destruct neg; reflexivity.
  Qed.

  Lemma number_ok n t rest : number_text f32 n t -> number_ends rest -> number_lit f32_parse (t ++ rest) = POk n rest.
  Proof.
    intros [n' t' H|n' t' H] He.
    - exact (unsigned_ok n' t' false rest H He).
    - rewrite <- app_assoc. exact (unsigned_ok n' t' true rest H He).
  Qed.

  (** First character of a number. *)
  Definition num_head (c : N) : bool := is_digit c || (c =? 45) || (c =? 46).
  Lemma number_head n t : number_text f32 n t -> exists c r, t = c :: r /\ num_head c = true.
  Proof.
    assert (D : forall ds u, all_digits ds -> ds <> [] -> exists c r, ds ++ u = c :: r /\ num_head c = true).
    { intros ds u A Nn. destruct ds as [|c ds]; [contradiction|]. inversion A as [|? ? Hc]; subst.
      exists c, (ds ++ u). split; [reflexivity|]. unfold num_head. now rewrite Hc. }
    assert (U : forall n t, unsigned_text f32 n t -> exists c r, t = c :: r /\ num_head c = true).
    { intros n0 t0 H.
      destruct H as [ds v Hs Hne _|ds v Hs Hne _|ds v Hs Hne _|ds v Hs Hne _|ds ds' b Hd Hd' _|ds frac e s x b Hd Hf _ _ _ _].
      - rewrite <- (app_nil_r ds). eapply D; [eapply spells_digits10; eauto|eauto].
      - rewrite <- (app_nil_r ds). eapply D; [eapply spells_digits10; eauto|eauto].
      - exists 48, (120 :: ds). auto.
      - exists 48, (120 :: ds). auto.
      - destruct Hd as [Hd| ->]; [|exists 46, ds'; auto]. apply digits_all in Hd as [A Nn]. apply D; auto.
      - apply digits_all in Hf as [Af Nf]. destruct Hd as [Hd| ->].
        + apply digits_all in Hd as [A Nn]. destruct ds as [|c ds]; [contradiction|]. rewrite <- app_assoc. apply D; auto.
        + cbn [app]. apply D; auto. }
    intros [n' t' H|n' t' H]; [eauto|]. exists 45, t'. auto.
  Qed.
  Lemma num_head_facts c : num_head c = true -> is_ws c = false /\ c <> 34 /\ c <> 123 /\ c <> 95 /\ c <> 125 /\ c <> 44.
  Proof.
    unfold num_head, is_digit, is_ws. intro H.
    repeat rewrite orb_true_iff in H. repeat rewrite andb_true_iff in H. repeat rewrite N.leb_le in H. repeat rewrite N.eqb_eq in H.
    repeat rewrite orb_false_iff. repeat rewrite andb_false_iff. repeat rewrite N.leb_gt. repeat rewrite N.eqb_neq. lia.
  Qed.
  Lemma number_miss c r : num_head c = false -> number_lit f32_parse (c :: r) = PErr.
  Proof.
    intro H. unfold num_head in H. repeat rewrite orb_false_iff in H. destruct H as [[H1 H2] H3]. apply N.eqb_neq in H2, H3.
    assert (Hd : forall c' r', c :: r = c' :: r' -> is_digit c' = false) by (intros c' r' E; injection E as <- _; exact H1).
    unfold number_lit. unfold pbind at 1. unfold or_not at 1. rewrite just1_miss by congruence.
    unfold pbind at 1. unfold alt, pmap. unfold pbind at 1 2 3 4.
    unfold number_float_exponent, ptry. unfold pbind at 1. unfold or_not at 1. unfold pbind at 1. rewrite digits_miss by auto.
    unfold pbind at 1. rewrite digits_miss by auto.
    unfold number_float_basic, ptry. unfold pbind at 1. unfold or_not at 1. rewrite digits_miss by auto.
    unfold pbind at 1. rewrite just1_miss by congruence.
    unfold number_hex, ptry. unfold pbind at 1.
    rewrite (just_miss (bs "0x") c (c :: r) r); [|discriminate|reflexivity|].
    2: { intros k' E. injection E as <- _. discriminate. }
    unfold number_int, ptry. rewrite digits_miss by auto. reflexivity.
  Qed.

  (** ** A number with white space behind it, read through [math] or directly *)
  Lemma spaces_split w : exists k w', w = repeat 32 k ++ w' /\ (forall r, w' <> 32 :: r).
  Proof.
    induction w as [|c w (k & w' & -> & H)]; [exists O, []; split; [reflexivity|discriminate]|].
    destruct (N.eq_dec c 32) as [->|E].
    - exists (S k), w'. auto.
    - exists O, (c :: repeat 32 k ++ w'). split; [reflexivity|congruence].
  Qed.

  Lemma math_stop c r : num_head c = false -> is_math_char c = false -> math_token f32_parse f32_show (c :: r) = PErr.
  Proof.
    intros H1 H2. unfold math_token, alt, pmap, pbind. rewrite number_miss by auto.
    unfold one_char, pmap, pbind. cbn [sat]. now rewrite H2.
  Qed.
  Lemma math_space r : math_token f32_parse f32_show (32 :: r) = POk [32] r.
  Proof. unfold math_token, alt, pmap, pbind. rewrite number_miss by reflexivity. reflexivity. Qed.

  Lemma math_spaces k c r fuel : num_head c = false -> is_math_char c = false -> (k < fuel)%nat ->
    repeated fuel (math_token f32_parse f32_show) (repeat 32 k ++ c :: r) = POk (repeat [32] k) (c :: r).
  Proof.
    intros H1 H2. revert fuel; induction k as [|k IH]; intros fuel Hf; (destruct fuel as [|fuel]; [lia|]); cbn [repeat app repeated].
    - now rewrite math_stop.
    - rewrite math_space, IH by lia. reflexivity.
  Qed.

  Lemma concat_spaces k : concat (repeat [32] k) = repeat 32 k.
  Proof. induction k; cbn; congruence. Qed.
  Lemma trim_spaces t k : trim (t ++ repeat 32 k) = trim t.
  Proof.
    assert (B : blank (repeat 32 k)) by (apply Forall_forall; intros x Hx; apply repeat_spec in Hx; now subst).
    remember (repeat 32 k) as w. clear Heqw.
    assert (TE : forall x, trim_end (x ++ w) = trim_end x).
    { intro x. unfold trim_end. rewrite rev_app_distr. rewrite trim_blank_gen; [reflexivity|].
      apply Forall_rev. exact B. }
    assert (TB : trim_start w = []).
    { clear TE. induction B as [|c w Hc Hw IH]; [reflexivity|]. cbn. now rewrite Hc. }
    unfold trim. induction t as [|c t IH].
    - cbn [app]. now rewrite TB.
    - cbn [app trim_start]. destruct (is_ws c); [exact IH|]. change (c :: t ++ w) with ((c :: t) ++ w). apply TE.
  Qed.

  Lemma term_stop c r : term (c :: r) -> num_head c = false /\ is_math_char c = false.
  Proof. intros (c' & r' & E & H). injection E as <- <-. destruct H as [->|[->| ->]]; auto. Qed.
  Lemma ws_stop c : is_ws c = true -> c <> 32 -> num_head c = false /\ is_math_char c = false.
  Proof.
    intros H Hn. unfold is_ws in H. unfold num_head, is_digit, is_math_char.
    repeat rewrite orb_true_iff in H. repeat rewrite andb_true_iff in H. repeat rewrite N.leb_le in H. repeat rewrite N.eqb_eq in H.
    repeat rewrite orb_false_iff. repeat rewrite andb_false_iff. repeat rewrite N.leb_gt. repeat rewrite N.eqb_neq. lia.
  Qed.

  Lemma math_or_number n t w r : number_text f32 n t -> after_number agrees n w -> blank w -> term r ->
    (exists r', math f32_parse f32_show try_eval (t ++ w ++ r) = POk n r' /\ trim_start r' = r) \/
    (math f32_parse f32_show try_eval (t ++ w ++ r) = PErr /\ number_lit f32_parse (t ++ w ++ r) = POk n (w ++ r)).
  Proof.
    intros Ht Ha Hw Hr. pose proof (ends_blank_term w r Hw Hr) as He.
    pose proof (number_ok n t (w ++ r) Ht He) as HN.
    destruct (spaces_split w) as (k & w' & Ew & Hw').
    assert (Hstop : exists c r1, w' ++ r = c :: r1 /\ num_head c = false /\ is_math_char c = false).
    { destruct w' as [|c w'].
      - destruct Hr as (c & r1 & -> & H). exists c, r1. split; [reflexivity|]. apply (term_stop c r1). exists c, r1. auto.
      - exists c, (w' ++ r). split; [reflexivity|]. apply ws_stop.
        + subst w. apply Forall_app in Hw as [_ Hw]. now inversion Hw.
        + intros ->. eapply Hw'. reflexivity. }
    destruct Hstop as (c & r1 & Ec & S1 & S2).
    assert (HT : repeated (S (length (t ++ w ++ r))) (math_token f32_parse f32_show) (t ++ w ++ r)
      = POk (show_number f32_show n :: repeat [32] k) (c :: r1)).
    { cbn [repeated]. unfold math_token at 1, alt, pmap. unfold pbind at 1. rewrite HN. unfold pret.
      subst w. rewrite <- !app_assoc. rewrite Ec. rewrite math_spaces; auto.
      rewrite !app_length, repeat_length. cbn [length]. destruct (number_head n t Ht) as (c0 & r0 & -> & _). cbn [length]. lia. }
    unfold math, ptry, at_least. rewrite HT. destruct k as [|k].
    - right. split; [reflexivity|exact HN].
    - cbn [length Nat.ltb Nat.leb repeat].
      change (concat (show_number f32_show n :: repeat [32] (S k))) with (show_number f32_show n ++ concat (repeat [32] (S k))).
      change ([32] :: repeat [32] k) with (repeat [32] (S k)).
      change (concat (show_number f32_show n :: repeat [32] (S k))) with (show_number f32_show n ++ concat (repeat [32] (S k))).
      rewrite concat_spaces, trim_spaces.
      destruct Ha as [->| ->].
      + exists (repeat 32 k ++ w'). subst w. reflexivity.
      + left. exists (c :: r1). split; [reflexivity|]. rewrite <- Ec. apply trim_blank; [|apply term_solid; exact Hr].
        subst w. apply Forall_app in Hw. tauto.
      + right. split; [reflexivity|exact HN].
  Qed.

  (** ** Strings *)
  Lemma string_text_ok s t w r : string_text s t -> blank w -> term r -> string_lit 34 (t ++ w ++ r) = POk s (w ++ r).
  Proof.
    intros (segs & Hl & Hu) Hw Hr. rewrite (string_ok segs t (w ++ r) Hl).
    - f_equal. eapply unfolded_det; [apply drop_spec|exact Hu].
    - destruct Hr as (c & r' & -> & Hc). split.
      + intros r0 E. destruct w as [|x w]; cbn in E; injection E as -> _; [lia|]. inversion Hw as [|? ? Hx]. discriminate.
      + intros w1 w2 r0 H1 H2 E. assert (T : trim_start (w ++ c :: r') = c :: r').
        { apply trim_blank; [exact Hw|]. apply solid_cons. destruct Hc as [->|[->| ->]]; reflexivity. }
        rewrite E in T. rewrite trim_blank in T; [|exact H1|apply solid_cons; reflexivity].
        cbn in T. injection T as <- _. lia.
  Qed.
  Lemma string_head s t : string_text s t -> exists r, t = 34 :: r.
  Proof. intros (segs & Hl & _). eapply literal_head. eauto. Qed.
  Lemma string_miss c r : c <> 34 -> string_lit 34 (c :: r) = PErr.
  Proof.
    intro H. unfold string_lit, pmap, pbind, at_least, separated_by. rewrite segment_needs_quote by congruence. reflexivity.
  Qed.

  (** ** Arrays *)
  Lemma array_miss fuel c r : is_ws c = false -> c <> 123 -> array_items f32_parse f32_show try_eval (S fuel) (c :: r) = PErr.
  Proof.
    intros H1 H2. cbn [array_items]. unfold pbind at 1.
    pose proof (padded_miss (bs "{") [] c r ltac:(constructor) H1 ltac:(discriminate) ltac:(intros k' E; injection E as E _; congruence)) as K.
    cbn [app] in K. now rewrite K.
  Qed.

  Definition elem (f : nat) : parser item :=
    padded (por (pmap IArr (array_items f32_parse f32_show try_eval f))
      (recover can_skip_item (array_value f32_parse f32_show try_eval))).

  Lemma array_value_close r : array_value f32_parse f32_show try_eval (125 :: r) = PErr.
  Proof.
    unfold array_value, alt, pmap, pbind. rewrite string_miss by discriminate.
    unfold math, ptry, at_least. cbn [repeated]. rewrite math_stop by reflexivity. cbn [length Nat.ltb Nat.leb].
    now rewrite number_miss.
  Qed.
  Lemma elem_close f r : elem (S f) (125 :: r) = PErr.
  Proof.
    unfold elem, padded. rewrite trim_solid by (apply solid_cons; reflexivity).
    unfold por, pmap. unfold pbind at 1. rewrite array_miss by (try reflexivity; discriminate).
    unfold recover. rewrite array_value_close. reflexivity.
  Qed.

  Lemma elem_scalar f i t w r :
    (exists s, i = IStr s /\ string_text s t) \/ (exists n, i = INum n /\ number_text f32 n t /\ after_number agrees n w) ->
    blank w -> term r -> elem (S f) (t ++ w ++ r) = POk i r.
  Proof.
    intros H Hw Hr.
    assert (Hhd : exists c t', t = c :: t' /\ is_ws c = false /\ c <> 123).
    { destruct H as [(s & _ & Hs)|(n & _ & Hn & _)].
      - destruct (string_head _ _ Hs) as [t' ->]. exists 34, t'. split; [reflexivity|]. split; [reflexivity|discriminate].
      - destruct (number_head _ _ Hn) as (c & t' & -> & Hc). exists c, t'. split; [reflexivity|].
        apply num_head_facts in Hc. tauto. }
    destruct Hhd as (c & t' & Et & Hc1 & Hc2).
    assert (HA : exists r', array_value f32_parse f32_show try_eval (t ++ w ++ r) = POk i r' /\ trim_start r' = r).
    { destruct H as [(s & -> & Hs)|(n & -> & Hn & Ha)].
      - exists (w ++ r). split; [|apply trim_blank; auto using term_solid].
        unfold array_value, alt, pmap, pbind. rewrite (string_text_ok s t w r) by auto. reflexivity.
      - assert (Hq : string_lit 34 (t ++ w ++ r) = PErr).
        { destruct (number_head _ _ Hn) as (c0 & t0 & E0 & Hc0). rewrite E0. cbn [app]. apply string_miss.
          apply num_head_facts in Hc0. tauto. }
        destruct (math_or_number n t w r Hn Ha Hw Hr) as [(r' & HM & HT)|[HM HN]].
        + exists r'. split; [|exact HT]. unfold array_value, alt, pmap, pbind. rewrite Hq, HM. reflexivity.
        + exists (w ++ r). split; [|apply trim_blank; auto using term_solid].
          unfold array_value, alt, pmap, pbind. rewrite Hq, HM, HN. reflexivity. }
    destruct HA as (r' & HA & HT).
    unfold elem, padded. rewrite Et in *. cbn [app]. rewrite trim_solid by now apply solid_cons.
    unfold por, pmap. unfold pbind at 1. rewrite array_miss by auto.
    unfold recover. cbn [app] in HA. rewrite HA. now rewrite HT.
  Qed.

  Scheme item_mind := Minimality for item_text Sort Prop
    with array_mind := Minimality for array_text Sort Prop
    with elems_mind := Minimality for elems Sort Prop.
  Combined Scheme items_ind from item_mind, array_mind, elems_mind.

  Lemma item_solid i t w : item_text f32 agrees i t w -> t <> [] /\ forall r, solid (t ++ r).
  Proof.
    intros [s t' w' H|n t' w' H _|l t' w' H].
    - destruct (string_head _ _ H) as [t0 ->]. split; [discriminate|]. intro. apply solid_cons. reflexivity.
    - destruct (number_head _ _ H) as (c & t0 & -> & Hc). split; [discriminate|]. intro. apply solid_cons.
      apply num_head_facts in Hc. tauto.
    - destruct H. split; [discriminate|]. intro. apply solid_cons. reflexivity.
  Qed.
  Lemma elems_solid l t : elems f32 agrees l t -> t <> [] /\ forall r, solid (t ++ r).
  Proof.
    intros [|i t' w Hw H|i t' w1 w2 l' u Hw1 Hw2 H _].
    - split; [discriminate|]. intro. apply solid_cons. reflexivity.
    - destruct (item_solid _ _ _ H) as [H1 H2]. split; [intro E; apply app_eq_nil in E; tauto|].
      intro r. rewrite <- app_assoc. apply H2.
    - destruct (item_solid _ _ _ H) as [H1 H2]. split; [intro E; apply app_eq_nil in E; tauto|].
      intro r. rewrite <- app_assoc. apply H2.
  Qed.
  Lemma comma_term r : term (bs "," ++ r).
  Proof. exists 44, r. auto. Qed.
  Lemma close_term r : term (bs "}" ++ r).
  Proof. exists 125, r. auto. Qed.
  Lemma semi_term r : term (bs ";" ++ r).
  Proof. exists 59, r. auto. Qed.

  (** The list of elements read from [t]: after an element when [first = false]. *)
  Definition comma : parser unit := padded (just (bs ",")).
  Lemma comma_hit w1 w2 r : blank w1 -> blank w2 -> solid r -> comma (w1 ++ bs "," ++ w2 ++ r) = POk tt r.
  Proof. intros. apply padded_just; auto; [apply solid_cons; reflexivity|discriminate]. Qed.
  Lemma comma_close r : comma (125 :: r) = PErr.
  Proof.
    exact (padded_miss (bs ",") [] 125 r ltac:(constructor) eq_refl ltac:(discriminate) ltac:(intros k' E; injection E as E _; discriminate)).
  Qed.

  Definition item_P (i : item) (t w : text) : Prop :=
    forall f r, blank w -> term r -> (length t < f)%nat -> elem f (t ++ w ++ r) = POk i r.
  Definition array_P (l : list item) (t : text) : Prop :=
    forall f r, (length t <= f)%nat -> array_items f32_parse f32_show try_eval f (t ++ r) = POk l (trim_start r).
  Definition elems_P (l : list item) (t : text) : Prop :=
    forall f r, (length t <= f)%nat ->
    (forall w k, l <> [] -> blank w -> (length l < k)%nat ->
       exists l' r', sep_tail k (elem f) comma (bs "," ++ w ++ t ++ r) = POk l' r' /\ l' = l /\
         (r' = bs "}" ++ r \/ comma r' = POk tt (bs "}" ++ r))) /\
    (forall k, (length l < k)%nat ->
       allow_trailing comma (separated_by k (elem f) comma) (t ++ r) = POk l (bs "}" ++ r)).

  (** After the last element: either at the brace, or a trailing comma before it. *)
  Lemma tail_close f k r : (0 < k)%nat -> sep_tail k (elem (S f)) comma (125 :: r) = POk [] (125 :: r).
  Proof. intro H. destruct k; [lia|]. cbn [sep_tail]. now rewrite comma_close. Qed.
  Lemma tail_trailing f k w r : (0 < k)%nat -> blank w ->
    sep_tail k (elem (S f)) comma (44 :: w ++ 125 :: r) = POk [] (44 :: w ++ 125 :: r).
  Proof.
    intros H Hw. destruct k; [lia|]. cbn [sep_tail].
    pose proof (comma_hit [] w (125 :: r) ltac:(constructor) Hw ltac:(apply solid_cons; reflexivity)) as E.
    change ([] ++ bs "," ++ w ++ 125 :: r) with (44 :: w ++ 125 :: r) in E. rewrite E. now rewrite elem_close.
  Qed.

  Lemma items_all :
    (forall i t w, item_text f32 agrees i t w -> item_P i t w) /\
    (forall l t, array_text f32 agrees l t -> array_P l t) /\
    (forall l t, elems f32 agrees l t -> elems_P l t).
  Proof.
    apply items_ind.
    - intros s t w H f r Hw Hr Hf. destruct f; [lia|]. apply elem_scalar; eauto.
    - intros n t w H Ha f r Hw Hr Hf. destruct f; [lia|]. apply elem_scalar; eauto.
    - intros l t w H IH f r Hw Hr Hf.
      unfold elem, padded. destruct H as [l w0 t0 Hw0 He].
      rewrite trim_solid by (apply solid_cons; reflexivity).
      unfold por, pmap, pbind. rewrite IH by (apply Nat.lt_le_incl; exact Hf). unfold pret.
      rewrite trim_blank by auto using term_solid. rewrite trim_solid by auto using term_solid. reflexivity.
    - intros l w t Hw He IH f r Hf. cbn [app bs b_of_string length] in Hf.
      change (bs "{" ++ w ++ t) with (123 :: w ++ t) in Hf. cbn [length] in Hf. rewrite app_length in Hf.
      destruct f as [|f]; [lia|].
      destruct (IH f r ltac:(lia)) as [_ IH2].
      destruct (elems_solid _ _ He) as [Hne Hs].
      cbn [array_items]. fold (elem f). unfold pbind at 1.
      replace ((bs "{" ++ w ++ t) ++ r) with ([] ++ bs "{" ++ w ++ t ++ r) by (rewrite <- !app_assoc; reflexivity).
      rewrite padded_just; [|constructor|apply solid_cons; reflexivity|discriminate|exact Hw|apply Hs].
      unfold pbind at 1. fold comma. rewrite IH2.
      + unfold pbind. pose proof (padded_just_gen [] (bs "}") [] r ltac:(constructor) ltac:(apply solid_cons; reflexivity) ltac:(discriminate) ltac:(constructor)) as E.
        cbn [app] in E. cbn [app]. rewrite E. reflexivity.
      + (* number of elements is at most the length *)
        rewrite app_length. clear IH IH2 Hf.
        assert (length l <= length t)%nat; [|lia].
        induction He as [|i t' w' Hw' Hi|i t' w1 w2 l u Hw1 Hw2 Hi He' IHe]; [cbn; lia| |].
        * destruct (item_solid _ _ _ Hi) as [Hn _]. rewrite !app_length. cbn. lia.
        * destruct (elems_solid _ _ He') as [Hne' Hs']. rewrite !app_length. cbn [length]. specialize (IHe Hne' Hs'). cbn. lia.
    - intros f r Hf. split; [intros w k Hl; contradiction|].
      intros k Hk. cbn [app]. unfold allow_trailing, separated_by. cbn in Hf. destruct f; [lia|].
      change (bs "}" ++ r) with (125 :: r). rewrite elem_close. reflexivity.
    - intros i t w Hw Hi IH f r Hf.
      destruct (item_solid _ _ _ Hi) as [Hne Hs].
      rewrite !app_length in Hf. cbn [length bs b_of_string] in Hf.
      assert (HE : elem f (t ++ w ++ bs "}" ++ r) = POk i (bs "}" ++ r)) by (apply IH; auto using close_term; cbn in Hf; lia).
      assert (Hf0 : exists f', f = S f') by (destruct f; [cbn in Hf; lia|eauto]). destruct Hf0 as [f' ->].
      split.
      + intros v k _ Hv Hk. exists [i], (bs "}" ++ r). split; [|auto].
        destruct k as [|k]; [lia|]. cbn [sep_tail].
        pose proof (comma_hit [] v ((t ++ w ++ bs "}") ++ r) ltac:(constructor) Hv) as E. cbn [app] in E.
        rewrite E by (rewrite <- app_assoc; apply Hs). rewrite <- !app_assoc. rewrite HE.
        change (bs "}" ++ r) with (125 :: r). rewrite tail_close by (cbn in Hk; lia). reflexivity.
      + intros k Hk. unfold allow_trailing, separated_by. rewrite <- !app_assoc. rewrite HE.
        change (bs "}" ++ r) with (125 :: r). rewrite tail_close by (cbn in Hk; lia). now rewrite comma_close.
    - intros i t w1 w2 l u Hw1 Hw2 Hi IHi He IHe f r Hf.
      destruct (item_solid _ _ _ Hi) as [Hne Hs]. destruct (elems_solid _ _ He) as [Hne' Hs'].
      rewrite !app_length in Hf.
      assert (HE : elem f (t ++ w1 ++ bs "," ++ w2 ++ u ++ r) = POk i (bs "," ++ w2 ++ u ++ r))
        by (apply IHi; auto using comma_term; cbn in Hf; lia).
      assert (Hf0 : exists f', f = S f') by (destruct f; [cbn in Hf; lia|eauto]). destruct Hf0 as [f' ->].
      destruct (IHe (S f') r ltac:(cbn in Hf; lia)) as [IH1 IH2].
      assert (EQ : (t ++ w1 ++ bs "," ++ w2 ++ u) ++ r = t ++ w1 ++ bs "," ++ w2 ++ u ++ r) by (rewrite <- !app_assoc; reflexivity).
      (* what the tail after [i] does *)
      assert (TL : forall k, (length l < k)%nat -> exists r', sep_tail k (elem (S f')) comma (bs "," ++ w2 ++ u ++ r) = POk l r' /\
        (r' = bs "}" ++ r \/ comma r' = POk tt (bs "}" ++ r))).
      { intros k Hk. destruct l as [|j l].
        - inversion He; subst. exists (44 :: w2 ++ 125 :: r).
          split; [change (bs "," ++ w2 ++ bs "}" ++ r) with (44 :: w2 ++ 125 :: r); apply tail_trailing; [lia|auto]|].
          right. exact (comma_hit [] w2 (125 :: r) ltac:(constructor) Hw2 ltac:(apply solid_cons; reflexivity)).
        - destruct (IH1 w2 k ltac:(discriminate) Hw2 Hk) as (l' & r' & K1 & -> & K2). eauto. }
      split.
      + intros v k _ Hv Hk. destruct k as [|k]; [lia|].
        destruct (TL k) as (r' & K1 & K2); [cbn in Hk; lia|].
        exists (i :: l), r'. split; [|auto]. cbn [sep_tail].
        pose proof (comma_hit [] v ((t ++ w1 ++ bs "," ++ w2 ++ u) ++ r) ltac:(constructor) Hv) as E. cbn [app] in E.
        rewrite E by (rewrite <- app_assoc; apply Hs). rewrite EQ, HE, K1. reflexivity.
      + intros k Hk. destruct (TL k) as (r' & K1 & K2); [cbn in Hk; lia|].
        unfold allow_trailing, separated_by. rewrite EQ, HE, K1.
        destruct K2 as [->|K2]; [change (bs "}" ++ r) with (125 :: r); now rewrite comma_close|now rewrite K2].
  Qed.

  Lemma array_ok l t r : array_text f32 agrees l t -> array f32_parse f32_show try_eval (t ++ r) = POk l (trim_start r).
  Proof. intro H. unfold array. apply (proj1 (proj2 items_all) l t H). rewrite app_length. lia. Qed.

  (** ** Expressions *)
  Lemma eval_inner_close f r : eval_inner (S f) (41 :: r) = PErr.
  Proof. reflexivity. Qed.
  Lemma eval_inner_run f t r : run t -> (exists c r', r = c :: r' /\ (c = 40 \/ c = 41)) -> eval_inner (S f) (t ++ r) = POk t r.
  Proof.
    intros [Hne Hc] (c & r' & -> & Hp). cbn [eval_inner]. unfold por.
    assert (J : just (bs "(") (t ++ c :: r') = PErr).
    { destruct t as [|x t]; [contradiction|]. inversion Hc as [|? ? Hx]; subst. apply just1_miss. intros q E. injection E as E _. lia. }
    unfold pbind at 1. rewrite J. unfold at_least.
    rewrite repeated_sat; [destruct t; [contradiction|reflexivity]| | |rewrite app_length; lia].
    - eapply Forall_impl; [|exact Hc]. intros x [A B]. apply N.eqb_neq in A, B. now rewrite A, B.
    - intros x q E. injection E as <- _. destruct Hp as [->| ->]; reflexivity.
  Qed.

  Lemma eval_inner_group f t q ts :
    repeated (S (length (t ++ 41 :: q))) (eval_inner f) (t ++ 41 :: q) = POk ts (41 :: q) -> ts <> [] ->
    eval_inner (S f) (bs "(" ++ t ++ 41 :: q) = POk (bs "(" ++ concat ts ++ bs ")") q.
  Proof.
    intros E1 E3. cbn [eval_inner]. unfold por. unfold pbind at 1. rewrite just_app. unfold pbind at 1, at_least.
    rewrite E1. replace (length ts <? 1)%nat with false by (destruct ts; [contradiction|reflexivity]).
    unfold pbind at 1. change (bs ")") with [41] at 1. rewrite just1_hit. reflexivity.
  Qed.

  Lemma expr_ok t : expr t -> forall f k r, (length t < f)%nat -> (length t < k)%nat ->
    exists ts, repeated k (eval_inner f) (t ++ 41 :: r) = POk ts (41 :: r) /\ concat ts = t /\ ts <> [].
  Proof.
    induction 1 as [t Ht|t Ht IH|r0 t Hr0 Ht IH|t u Ht IHt Hu IHu]; intros f k r Hf Hk.
    - destruct f as [|f]; [lia|]. destruct k as [|k]; [lia|]. exists [t]. cbn [repeated].
      rewrite eval_inner_run by (auto; exists 41, r; auto).
      destruct k as [|k]; [destruct Ht as [Hne _]; destruct t; [contradiction|cbn in Hk; lia]|].
      cbn [repeated]. rewrite eval_inner_close. cbn. rewrite app_nil_r. repeat split; congruence.
    - destruct f as [|f]; [lia|]. destruct k as [|k]; [lia|]. exists [bs "(" ++ t ++ bs ")"].
      rewrite !app_length in Hf, Hk.
      change (length (bs "(")) with 1%nat in *. change (length (bs ")")) with 1%nat in *.
      destruct (IH f (S (length (t ++ 41 :: 41 :: r))) (41 :: r)) as (ts & E1 & E2 & E3); [lia|rewrite app_length; lia|].
      cbn [repeated].
      replace ((bs "(" ++ t ++ bs ")") ++ 41 :: r) with (bs "(" ++ t ++ 41 :: 41 :: r) by (rewrite <- !app_assoc; reflexivity).
      rewrite (eval_inner_group f t (41 :: r) ts E1 E3). rewrite E2.
      destruct k as [|k]; [lia|].
      cbn [repeated]. rewrite eval_inner_close. cbn [concat]. rewrite app_nil_r. repeat split; congruence.
    - destruct f as [|f]; [lia|]. destruct k as [|k]; [lia|].
      rewrite !app_length in Hf, Hk. change (length (bs "(")) with 1%nat in *.
      assert (Hlen : (1 <= length r0)%nat) by (destruct Hr0 as [Hne _]; destruct r0; [contradiction|cbn; lia]).
      destruct (IH (S f) k r) as (ts & E1 & E2 & E3); [rewrite app_length; cbn; lia|rewrite app_length; cbn; lia|].
      exists (r0 :: ts). cbn [repeated]. rewrite <- app_assoc.
      rewrite eval_inner_run; [|exact Hr0|exists 40, (t ++ 41 :: r); split; [reflexivity|auto]].
      rewrite E1. cbn [concat]. rewrite E2. repeat split; congruence.
    - destruct f as [|f]; [lia|]. destruct k as [|k]; [lia|].
      rewrite !app_length in Hf, Hk. change (length (bs "(")) with 1%nat in *. change (length (bs ")")) with 1%nat in *.
      destruct (IHu (S f) k r) as (us & U1 & U2 & U3); [lia|lia|].
      destruct (IHt f (S (length (t ++ 41 :: u ++ 41 :: r))) (u ++ 41 :: r)) as (ts & E1 & E2 & E3); [lia|rewrite app_length; lia|].
      exists ((bs "(" ++ t ++ bs ")") :: us). cbn [repeated].
      replace ((bs "(" ++ t ++ bs ")" ++ u) ++ 41 :: r) with (bs "(" ++ t ++ 41 :: u ++ 41 :: r)
        by (rewrite <- !app_assoc; reflexivity).
      rewrite (eval_inner_group f t (u ++ 41 :: r) ts E1 E3). rewrite E2.
      rewrite U1. cbn [concat]. rewrite U2. repeat split; [|congruence].
      rewrite <- !app_assoc. reflexivity.
  Qed.

  Lemma eval_ok t w r : expr t -> eval ((bs "__EVAL(" ++ t ++ bs ")") ++ w ++ r) = POk t (w ++ r).
  Proof.
    intro H. unfold eval, pexpect. unfold pbind.
    replace ((bs "__EVAL(" ++ t ++ bs ")") ++ w ++ r) with (bs "__EVAL" ++ (bs "(" ++ t ++ 41 :: w ++ r))
      by (change (bs "__EVAL(") with (bs "__EVAL" ++ bs "("); rewrite <- !app_assoc; reflexivity).
    rewrite just_app.
    set (L := length (bs "(" ++ t ++ 41 :: w ++ r)).
    assert (HL : (length t < L)%nat) by (unfold L; rewrite !app_length; cbn; lia).
    destruct (expr_ok t H L (S (length (t ++ 41 :: w ++ r))) (w ++ r)) as (ts & E1 & E2 & E3); [exact HL|rewrite app_length; lia|].
    rewrite (eval_inner_group L t (w ++ r) ts E1 E3). rewrite E2.
    change (bs "(" ++ t ++ bs ")") with (40 :: t ++ [41]). cbn [strip_parens]. rewrite rev_app_distr. cbn [rev app].
    now rewrite rev_involutive.
  Qed.

  (** ** Values *)
  Lemma eval_miss c r : c <> 95 -> eval (c :: r) = PErr.
  Proof.
    intro H. unfold eval, pexpect, pbind. rewrite (just_miss (bs "__EVAL") c (c :: r) r); [reflexivity|discriminate|reflexivity|].
    intros k E. injection E as E _. congruence.
  Qed.
  Lemma value_ok_text v t w r : value_text f32 agrees v t w -> blank w -> term r ->
    (exists r', value_lit f32_parse f32_show try_eval (t ++ w ++ r) = POk v r' /\ trim_start r' = r) /\ (forall q, solid (t ++ q)) .
  Proof.
    intros [s t' w' H|n t' w' H Ha|t' w' H] Hw Hr.
    - destruct (string_head _ _ H) as [t0 E]. split; [|rewrite E; intro; apply solid_cons; reflexivity].
      exists (w' ++ r). split; [|apply trim_blank; auto using term_solid].
      unfold value_lit, alt, pmap, pbind.
      replace (eval (t' ++ w' ++ r)) with (@PErr text) by (rewrite E; symmetry; apply eval_miss; discriminate).
      replace (array f32_parse f32_show try_eval (t' ++ w' ++ r)) with (@PErr (list item))
        by (rewrite E; symmetry; apply array_miss; [reflexivity|discriminate]).
      rewrite (string_text_ok s t' w' r) by auto. reflexivity.
    - destruct (number_head _ _ H) as (c & t0 & E & Hc). apply num_head_facts in Hc as (Hc1 & Hc2 & Hc3 & Hc4 & _).
      split; [|rewrite E; intro; now apply solid_cons].
      assert (K1 : eval (t' ++ w' ++ r) = PErr) by (rewrite E; apply eval_miss; auto).
      assert (K2 : array f32_parse f32_show try_eval (t' ++ w' ++ r) = PErr) by (rewrite E; apply array_miss; auto).
      assert (K3 : string_lit 34 (t' ++ w' ++ r) = PErr) by (rewrite E; apply string_miss; auto).
      destruct (math_or_number n t' w' r H Ha Hw Hr) as [(r' & HM & HT)|[HM HN]].
      + exists r'. split; [|exact HT]. unfold value_lit, alt, pmap, pbind. rewrite K1, K2, K3, HM. reflexivity.
      + exists (w' ++ r). split; [|apply trim_blank; auto using term_solid].
        unfold value_lit, alt, pmap, pbind. rewrite K1, K2, K3, HM, HN. reflexivity.
    - split; [|intro; apply solid_cons; reflexivity].
      exists (w' ++ r). split; [|apply trim_blank; auto using term_solid].
      unfold value_lit, alt, pmap. unfold pbind at 1. rewrite eval_ok by exact H. reflexivity.
  Qed.

  (** ** Properties *)
  (** A keyword followed by a space can only be the name itself. *)
  Lemma keyword_name word : Forall (fun c => ident_char c = true) word ->
    forall n s w c r, Forall (fun c => ident_char c = true) n -> blank w -> ident_char c = false -> is_ws c = false ->
    word ++ 32 :: s = n ++ w ++ c :: r -> exists w', blank w' /\ s = w' ++ c :: r.
  Proof.
    induction 1 as [|x word Hx Hword IH]; intros n s w c r Hn Hw Hc1 Hc2 E.
    - destruct n as [|y n].
      + destruct w as [|z w].
        * cbn in E. injection E as <- _. discriminate.
        * cbn in E. injection E as _ ->. inversion Hw; subst. eauto.
      + cbn in E. injection E as <- _. inversion Hn; subst. discriminate.
    - destruct n as [|y n].
      + destruct w as [|z w]; cbn in E.
        * injection E as -> _. congruence.
        * injection E as -> _. inversion Hw; subst. rewrite ident_char_solid in *; congruence.
      + cbn in E. injection E as -> E. inversion Hn; subst. eapply IH; eauto.
  Qed.
  Lemma keyword_miss word n w c r : Forall (fun c => ident_char c = true) word ->
    name n -> blank w -> ident_char c = false -> is_ws c = false ->
    padded (just (word ++ [32])) (n ++ w ++ c :: r) = PErr \/
    padded (just (word ++ [32])) (n ++ w ++ c :: r) = POk tt (c :: r).
  Proof.
    intros Hword Hn Hw Hc1 Hc2. unfold padded. rewrite trim_solid by now apply name_solid.
    unfold just. destruct (starts_with (word ++ [32]) (n ++ w ++ c :: r)) eqn:E; [right|left; reflexivity].
    apply starts_with_spec in E as [s E]. rewrite E. rewrite skipn_app_len.
    rewrite <- app_assoc in E. cbn [app] in E. symmetry in E.
    destruct (keyword_name word Hword n s w c r (name_chars n Hn) Hw Hc1 Hc2 E) as (w' & Hw' & ->).
    rewrite trim_blank; auto using solid_cons.
  Qed.
  Lemma ident_stop c r : ident_char c = false -> ident (c :: r) = PErr.
  Proof. intro H. apply ident_miss. now apply cons_no_ident. Qed.
  Lemma padded_ident_stop c r : ident_char c = false -> is_ws c = false -> padded ident (c :: r) = PErr.
  Proof. intros H1 H2. unfold padded. rewrite trim_solid by now apply solid_cons. now rewrite ident_stop. Qed.

  Lemma class_word : Forall (fun c => ident_char c = true) (bs "class").
  Proof. repeat constructor. Qed.
  Lemma delete_word : Forall (fun c => ident_char c = true) (bs "delete").
  Proof. repeat constructor. Qed.

  Lemma class_head_entry n w c r : name n -> blank w -> ident_char c = false -> is_ws c = false ->
    class_head (n ++ w ++ c :: r) = PErr.
  Proof.
    intros Hn Hw H1 H2. unfold class_head, pbind. change (bs "class ") with (bs "class" ++ [32]).
    destruct (keyword_miss (bs "class") n w c r class_word Hn Hw H1 H2) as [->| ->]; [reflexivity|].
    now apply padded_ident_stop.
  Qed.
  Lemma delete_entry n w c r : name n -> blank w -> ident_char c = false -> is_ws c = false ->
    delete (n ++ w ++ c :: r) = PErr.
  Proof.
    intros Hn Hw H1 H2. unfold delete, pmap, pbind. change (bs "delete ") with (bs "delete" ++ [32]).
    destruct (keyword_miss (bs "delete") n w c r delete_word Hn Hw H1 H2) as [->| ->]; [reflexivity|].
    now rewrite ident_stop.
  Qed.
  Lemma class_head_first c r : is_ws c = false -> c <> 99 -> class_head (c :: r) = PErr.
  Proof.
    intros H1 H2. unfold class_head, pbind.
    pose proof (padded_miss (bs "class ") [] c r ltac:(constructor) H1 ltac:(discriminate)) as K. cbn [app] in K.
    rewrite K; [reflexivity|]. intros k' E. injection E as E _. congruence.
  Qed.
  Lemma class_head_ok w1 n w2 r : name n -> blank w1 -> blank w2 -> solid r -> no_ident r ->
    class_head (bs "class " ++ w1 ++ n ++ w2 ++ r) = POk n r.
  Proof.
    intros Hn H1 H2 Hs Hr. unfold class_head, pbind.
    pose proof (padded_just [] (bs "class ") w1 (n ++ w2 ++ r) ltac:(constructor) ltac:(apply solid_cons; reflexivity)
      ltac:(discriminate) H1 ltac:(now apply name_solid)) as E. cbn [app] in E. cbn [app].
    rewrite E. now apply padded_ident.
  Qed.

  (** The class alternatives all start with [class_head]. *)
  Definition braces (f : nat) : parser (list property) :=
    _ <-- just (bs "{") ;;
    ps <-- padded (fun s => repeated (S (length s)) (padded (property_p f32_parse f32_show try_eval f)) s) ;;
    _ <-- just (bs "}") ;;
    pret ps.
  Definition local_p (f : nat) : parser class :=
    np <-- padded (n <-- class_head ;; p <-- or_not class_parent_p ;; pret (n, p)) ;;
    ps <-- braces f ;;
    pret (let (n, p) := np : text * option text in Local n p ps false).
  Definition cls_p (f : nat) : parser class := alt (local_p f) (alt class_missing class_external).
  Lemma property_eq f : property_p f32_parse f32_show try_eval (S f) =
    (p <-- alt (pmap PClass (cls_p f)) (alt delete (entry f32_parse f32_show try_eval)) ;;
     semi <-- or_not (padded (just (bs ";"))) ;;
     pret (match semi with Some _ => p | None => MissingSemicolon (parsed_name p) end)).
  Proof. reflexivity. Qed.

  Lemma cls_miss f s : solid s -> class_head s = PErr -> cls_p f s = PErr.
  Proof.
    intros Hs H. unfold cls_p, alt, local_p, class_missing, class_external, pmap, pbind, padded.
    rewrite trim_solid by exact Hs. now rewrite H.
  Qed.
  Lemma semi_hit w r : blank w -> or_not (padded (just (bs ";"))) (w ++ bs ";" ++ r) = POk (Some tt) (trim_start r).
  Proof.
    intro Hw. unfold or_not.
    pose proof (padded_just_gen w (bs ";") [] r Hw ltac:(apply solid_cons; reflexivity) ltac:(discriminate) ltac:(constructor)) as E.
    cbn [app] in E. cbn [app]. now rewrite E.
  Qed.

  Lemma finish f p s w r : alt (pmap PClass (cls_p f)) (alt delete (entry f32_parse f32_show try_eval)) s = POk p (w ++ bs ";" ++ r) ->
    blank w -> property_p f32_parse f32_show try_eval (S f) s = POk p (trim_start r).
  Proof. intros H Hw. rewrite property_eq. unfold pbind. rewrite H. now rewrite semi_hit. Qed.

  Lemma property_none f r : r = [] \/ (exists r', r = 125 :: r') -> property_p f32_parse f32_show try_eval (S f) r = PErr.
  Proof.
    intro H. rewrite property_eq. unfold pbind at 1. unfold alt, pmap. unfold pbind at 1.
    destruct H as [->|[r' ->]].
    - reflexivity.
    - rewrite cls_miss; [|apply solid_cons; reflexivity|now apply class_head_first].
      unfold delete, pmap, pbind.
      pose proof (padded_miss (bs "delete ") [] 125 r' ltac:(constructor) eq_refl ltac:(discriminate) ltac:(intros k' E; injection E as E _; discriminate)) as K.
      cbn [app] in K. rewrite K. unfold entry, pbind. rewrite padded_ident_stop by reflexivity. reflexivity.
  Qed.

  Lemma entry_shape f n w c r v e s : name n -> blank w -> ident_char c = false -> is_ws c = false ->
    entry_value f32_parse f32_show try_eval (c :: r) = POk (v, e) s ->
    alt (pmap PClass (cls_p f)) (alt delete (entry f32_parse f32_show try_eval)) (n ++ w ++ c :: r) = POk (Entry n v e) s.
  Proof.
    intros Hn Hw H1 H2 HE. unfold alt, pmap. unfold pbind at 1.
    rewrite cls_miss by (first [now apply name_solid | now apply class_head_entry]).
    rewrite delete_entry by auto. unfold entry, pbind.
    rewrite padded_ident by (auto using solid_cons, cons_no_ident). rewrite HE. reflexivity.
  Qed.

  Lemma brackets_eq r : padded (just (bs "[]")) (61 :: r) = PErr.
  Proof.
    exact (padded_miss (bs "[]") [] 61 r ltac:(constructor) eq_refl ltac:(discriminate) ltac:(intros k' E; injection E as E _; discriminate)).
  Qed.

  Scheme property_mind := Minimality for property_text Sort Prop
    with properties_mind := Minimality for properties_text Sort Prop.
  Combined Scheme property_texts_ind from property_mind, properties_mind.

  Definition property_P (p : property) (t : text) : Prop :=
    forall f r, (length t <= f)%nat -> property_p f32_parse f32_show try_eval f (t ++ r) = POk p (trim_start r).
  Definition properties_P (ps : list property) (t : text) : Prop :=
    forall f k w r, (length t < f)%nat -> (length t < k)%nat -> blank w -> (r = [] \/ exists r', r = 125 :: r') ->
    exists r', repeated k (padded (property_p f32_parse f32_show try_eval f)) (w ++ t ++ r) = POk ps r' /\
      trim_start r' = r /\ (ps <> [] -> r' = r).

  Lemma property_solid p t : property_text f32 agrees p t -> t <> [] /\ forall r, solid (t ++ r).
  Proof.
    assert (K : forall n u, name n -> n ++ u <> [] /\ forall r, solid ((n ++ u) ++ r)).
    { intros n u Hn. split.
      - destruct Hn as [Hne _]. intro E. apply app_eq_nil in E. tauto.
      - intro r. rewrite <- app_assoc. now apply name_solid. }
    destruct 1; first [now apply K | split; [discriminate|intro; apply solid_cons; reflexivity]].
  Qed.
  Lemma properties_solid ps t r : properties_text f32 agrees ps t -> solid r -> solid (t ++ r).
  Proof.
    intros [|p t' w ps' u Hp _ _] Hr; [exact Hr|]. rewrite <- app_assoc. now apply (property_solid p t' Hp).
  Qed.

  Lemma braces_ok f w ps t r : properties_text f32 agrees ps t -> properties_P ps t -> blank w -> (length t < f)%nat ->
    braces f (bs "{" ++ w ++ t ++ bs "}" ++ r) = POk ps r.
  Proof.
    intros Ht H Hw Hf. unfold braces, pbind. rewrite just_app. unfold padded at 1.
    rewrite trim_blank; [|exact Hw|apply (properties_solid ps t _ Ht); apply solid_cons; reflexivity].
    destruct (H f (S (length (t ++ bs "}" ++ r))) [] (bs "}" ++ r) Hf) as (r1 & E1 & E2 & E3);
      [rewrite app_length; lia|constructor|right; eexists; reflexivity|]. cbn [app] in E1. cbn [app].
    rewrite E1, E2. change (bs "}") with [125]. cbn [app]. rewrite just1_hit. reflexivity.
  Qed.

  Lemma parent_miss c r : is_ws c = false -> c <> 58 -> class_parent_p (c :: r) = PErr.
  Proof.
    intros H1 H2. unfold class_parent_p, pbind.
    pose proof (padded_miss (bs ":") [] c r ltac:(constructor) H1 ltac:(discriminate)) as K. cbn [app] in K.
    rewrite K; [reflexivity|]. intros k' E. injection E as E _. congruence.
  Qed.

  Lemma local_ok f w1 n w2 ps w3 t q : name n -> blank w1 -> blank w2 -> blank w3 ->
    properties_text f32 agrees ps t -> properties_P ps t -> (length t < f)%nat ->
    cls_p f (bs "class " ++ w1 ++ n ++ w2 ++ bs "{" ++ w3 ++ t ++ bs "}" ++ q) = POk (Local n None ps false) q.
  Proof.
    intros Hn H1 H2 H3 Ht HP Hf. unfold cls_p, alt, local_p. unfold pbind at 1. unfold padded.
    rewrite trim_solid by (apply solid_cons; reflexivity).
    unfold pbind at 1.
    rewrite class_head_ok; [|auto|auto|auto|apply solid_cons; reflexivity|apply cons_no_ident; reflexivity].
    unfold pbind at 1. unfold or_not.
    change (bs "{" ++ w3 ++ t ++ bs "}" ++ q) with (123 :: w3 ++ t ++ bs "}" ++ q) at 1.
    rewrite parent_miss by (try reflexivity; discriminate). unfold pret at 1.
    rewrite trim_solid by (apply solid_cons; reflexivity).
    unfold pbind at 1. rewrite (braces_ok f w3 ps t q Ht HP H3 Hf). reflexivity.
  Qed.
  Lemma sublocal_ok f w1 n w2 v1 p v2 ps w3 t q : name n -> name p -> blank w1 -> blank w2 -> blank v1 -> blank v2 -> blank w3 ->
    properties_text f32 agrees ps t -> properties_P ps t -> (length t < f)%nat ->
    cls_p f (bs "class " ++ w1 ++ n ++ w2 ++ bs ":" ++ v1 ++ p ++ v2 ++ bs "{" ++ w3 ++ t ++ bs "}" ++ q) = POk (Local n (Some p) ps false) q.
  Proof.
    intros Hn Hp H1 H2 G1 G2 H3 Ht HP Hf. unfold cls_p, alt, local_p. unfold pbind at 1. unfold padded at 1.
    rewrite trim_solid by (apply solid_cons; reflexivity).
    unfold pbind at 1.
    rewrite class_head_ok; [|auto|auto|auto|apply solid_cons; reflexivity|apply cons_no_ident; reflexivity].
    unfold pbind at 1. unfold or_not, class_parent_p. unfold pbind at 1.
    pose proof (padded_just [] (bs ":") v1 (p ++ v2 ++ bs "{" ++ w3 ++ t ++ bs "}" ++ q) ltac:(constructor)
      ltac:(apply solid_cons; reflexivity) ltac:(discriminate) G1 ltac:(now apply name_solid)) as E. rewrite app_nil_l in E.
    rewrite E. rewrite padded_ident; [|auto|auto|apply solid_cons; reflexivity|apply cons_no_ident; reflexivity].
    unfold pret at 1. rewrite trim_solid by (apply solid_cons; reflexivity).
    unfold pbind at 1. rewrite (braces_ok f w3 ps t q Ht HP H3 Hf). reflexivity.
  Qed.
  Lemma external_ok f w1 n w2 q : name n -> blank w1 -> blank w2 ->
    cls_p f (bs "class " ++ w1 ++ n ++ w2 ++ bs ";" ++ q) = POk (External n) (bs ";" ++ q).
  Proof.
    intros Hn H1 H2.
    assert (HC : class_head (bs "class " ++ w1 ++ n ++ w2 ++ bs ";" ++ q) = POk n (bs ";" ++ q))
      by (apply class_head_ok; [auto|auto|auto|apply solid_cons; reflexivity|apply cons_no_ident; reflexivity]).
    assert (HP : class_parent_p (bs ";" ++ q) = PErr) by (apply parent_miss; [reflexivity|discriminate]).
    remember (bs "class " ++ w1 ++ n ++ w2 ++ bs ";" ++ q) as s eqn:Es.
    assert (Hs : solid s) by (subst s; apply solid_cons; reflexivity).
    assert (L1 : local_p f s = PErr).
    { unfold local_p. unfold pbind at 1. unfold padded at 1. rewrite (trim_solid s) by exact Hs. unfold pbind at 1. rewrite HC.
      unfold pbind at 1. unfold or_not. rewrite HP. unfold pret at 1. rewrite trim_solid by (apply solid_cons; reflexivity).
      reflexivity. }
    assert (L2 : class_missing s = PErr).
    { unfold class_missing, padded at 1. rewrite (trim_solid s) by exact Hs. unfold pbind. rewrite HC, HP. reflexivity. }
    unfold cls_p, alt. rewrite L1, L2. unfold class_external, pmap, pbind, padded. rewrite (trim_solid s) by exact Hs.
    rewrite HC. unfold pret. rewrite trim_solid by (apply solid_cons; reflexivity). reflexivity.
  Qed.

  Lemma class_first f s c r q : s = 99 :: r -> cls_p f s = POk c q ->
    alt (pmap PClass (cls_p f)) (alt delete (entry f32_parse f32_show try_eval)) s = POk (PClass c) q.
  Proof. intros _ H. unfold alt, pmap, pbind. now rewrite H. Qed.

  Lemma fuel_S (P : nat -> Prop) f n : (n <= f)%nat -> (0 < n)%nat -> (forall f', f = S f' -> P (S f')) -> P f.
  Proof. intros H1 H2 H. destruct f; [lia|auto]. Qed.

  Lemma properties_all :
    (forall p t, property_text f32 agrees p t -> property_P p t) /\
    (forall ps t, properties_text f32 agrees ps t -> properties_text f32 agrees ps t /\ properties_P ps t).
  Proof.
    apply property_texts_ind.
    - (* value *)
      intros n v t w1 w2 w3 Hn H1 H2 H3 Hv f r Hf.
      assert (Hf' : exists f', f = S f') by (destruct Hn as [Hne _]; destruct n; [contradiction|]; destruct f; [cbn in Hf; lia|eauto]).
      destruct Hf' as [f' ->].
      destruct (value_ok_text v t w3 (bs ";" ++ r) Hv H3 (semi_term r)) as [(r' & E1 & E2) Hs].
      apply (finish f' _ _ [] r); [|constructor]. cbn [app].
      replace ((n ++ w1 ++ bs "=" ++ w2 ++ t ++ w3 ++ bs ";") ++ r) with (n ++ w1 ++ 61 :: w2 ++ t ++ w3 ++ bs ";" ++ r)
        by (rewrite <- !app_assoc; reflexivity).
      apply entry_shape; auto. unfold entry_value, por. unfold pbind at 1. rewrite brackets_eq.
      unfold pbind at 1.
      pose proof (padded_just [] (bs "=") w2 (t ++ w3 ++ bs ";" ++ r) ltac:(constructor)
        ltac:(apply solid_cons; reflexivity) ltac:(discriminate) H2 ltac:(apply Hs)) as E.
      cbn [app] in E. cbn [app]. change (bs "=") with [61] in E at 2. cbn [app] in E. rewrite E.
      unfold pmap, pbind, padded, recover. rewrite trim_solid by apply Hs. cbn [app] in E1. rewrite E1. now rewrite E2.
    - (* array *)
      intros n l t w1 w2 w3 w4 Hn H1 H2 H3 H4 Ha f r Hf.
      assert (Hf' : exists f', f = S f') by (destruct Hn as [Hne _]; destruct n; [contradiction|]; destruct f; [cbn in Hf; lia|eauto]).
      destruct Hf' as [f' ->].
      assert (Hs : forall q, solid (t ++ q)) by (intro q; destruct Ha; apply solid_cons; reflexivity).
      pose proof (array_ok l t (w4 ++ bs ";" ++ r) Ha) as HA.
      rewrite trim_blank in HA by (auto; apply solid_cons; reflexivity).
      apply (finish f' _ _ [] r); [|constructor]. cbn [app].
      replace ((n ++ w1 ++ bs "[]" ++ w2 ++ bs "=" ++ w3 ++ t ++ w4 ++ bs ";") ++ r)
        with (n ++ w1 ++ 91 :: 93 :: w2 ++ 61 :: w3 ++ t ++ w4 ++ bs ";" ++ r)
        by (rewrite <- !app_assoc; reflexivity).
      apply entry_shape; auto. unfold entry_value, por. unfold pbind at 1.
      pose proof (padded_just [] (bs "[]") w2 (61 :: w3 ++ t ++ w4 ++ bs ";" ++ r) ltac:(constructor)
        ltac:(apply solid_cons; reflexivity) ltac:(discriminate) H2 ltac:(apply solid_cons; reflexivity)) as E.
      change ([] ++ bs "[]" ++ w2 ++ 61 :: w3 ++ t ++ w4 ++ bs ";" ++ r) with (91 :: 93 :: w2 ++ 61 :: w3 ++ t ++ w4 ++ bs ";" ++ r) in E.
      rewrite E. clear E. unfold pmap at 1. unfold pbind at 1. unfold recover at 1. unfold pbind at 1.
      pose proof (padded_just [] (bs "=") w3 (t ++ w4 ++ bs ";" ++ r) ltac:(constructor)
        ltac:(apply solid_cons; reflexivity) ltac:(discriminate) H3 ltac:(apply Hs)) as E.
      change ([] ++ bs "=" ++ w3 ++ t ++ w4 ++ bs ";" ++ r) with (61 :: w3 ++ t ++ w4 ++ bs ";" ++ r) in E.
      rewrite E. unfold recover, padded, pmap, pbind. rewrite trim_solid by apply Hs. rewrite HA. unfold pret.
      rewrite trim_solid by (apply solid_cons; reflexivity). reflexivity.
    - (* append *)
      intros n l t w1 w2 w3 w4 Hn H1 H2 H3 H4 Ha f r Hf.
      assert (Hf' : exists f', f = S f') by (destruct Hn as [Hne _]; destruct n; [contradiction|]; destruct f; [cbn in Hf; lia|eauto]).
      destruct Hf' as [f' ->].
      assert (Hs : forall q, solid (t ++ q)) by (intro q; destruct Ha; apply solid_cons; reflexivity).
      pose proof (array_ok l t (w4 ++ bs ";" ++ r) Ha) as HA.
      rewrite trim_blank in HA by (auto; apply solid_cons; reflexivity).
      apply (finish f' _ _ [] r); [|constructor]. cbn [app].
      replace ((n ++ w1 ++ bs "[]" ++ w2 ++ bs "+=" ++ w3 ++ t ++ w4 ++ bs ";") ++ r)
        with (n ++ w1 ++ 91 :: 93 :: w2 ++ 43 :: 61 :: w3 ++ t ++ w4 ++ bs ";" ++ r)
        by (rewrite <- !app_assoc; reflexivity).
      apply entry_shape; auto. unfold entry_value, por. unfold pbind at 1.
      pose proof (padded_just [] (bs "[]") w2 (43 :: 61 :: w3 ++ t ++ w4 ++ bs ";" ++ r) ltac:(constructor)
        ltac:(apply solid_cons; reflexivity) ltac:(discriminate) H2 ltac:(apply solid_cons; reflexivity)) as E.
      change ([] ++ bs "[]" ++ w2 ++ 43 :: 61 :: w3 ++ t ++ w4 ++ bs ";" ++ r) with (91 :: 93 :: w2 ++ 43 :: 61 :: w3 ++ t ++ w4 ++ bs ";" ++ r) in E.
      rewrite E. clear E. unfold pmap at 1. unfold pbind at 1. unfold recover at 1. unfold pbind at 1.
      pose proof (padded_miss (bs "=") [] 43 (61 :: w3 ++ t ++ w4 ++ bs ";" ++ r) ltac:(constructor) eq_refl ltac:(discriminate)
        ltac:(intros k' E; injection E as E _; discriminate)) as K. rewrite app_nil_l in K. rewrite K.
      unfold padded at 1. rewrite trim_solid by (apply solid_cons; reflexivity). unfold pbind at 1.
      pose proof (padded_just [] (bs "+=") w3 (t ++ w4 ++ bs ";" ++ r) ltac:(constructor)
        ltac:(apply solid_cons; reflexivity) ltac:(discriminate) H3 ltac:(apply Hs)) as E.
      change ([] ++ bs "+=" ++ w3 ++ t ++ w4 ++ bs ";" ++ r) with (43 :: 61 :: w3 ++ t ++ w4 ++ bs ";" ++ r) in E.
      rewrite E. unfold pmap, pbind. rewrite HA. unfold pret.
      rewrite trim_solid by (apply solid_cons; reflexivity). reflexivity.
    - (* delete *)
      intros n w1 w2 Hn H1 H2 f r Hf. destruct f as [|f]; [cbn in Hf; lia|].
      apply (finish f _ _ w2 r); [|exact H2].
      replace ((bs "delete " ++ w1 ++ n ++ w2 ++ bs ";") ++ r) with (bs "delete " ++ w1 ++ n ++ w2 ++ bs ";" ++ r)
        by (rewrite <- !app_assoc; reflexivity).
      unfold alt, pmap. unfold pbind at 1.
      rewrite cls_miss; [|apply solid_cons; reflexivity|apply class_head_first; [reflexivity|discriminate]].
      unfold delete, pmap, pbind.
      pose proof (padded_just [] (bs "delete ") w1 (n ++ w2 ++ bs ";" ++ r) ltac:(constructor)
        ltac:(apply solid_cons; reflexivity) ltac:(discriminate) H1 ltac:(now apply name_solid)) as E.
      rewrite app_nil_l in E. rewrite E.
      rewrite ident_ok; [reflexivity|exact Hn|]. apply blank_no_ident; [exact H2|]. apply cons_no_ident. reflexivity.
    - (* external *)
      intros n w1 w2 Hn H1 H2 f r Hf. destruct f as [|f]; [cbn in Hf; lia|].
      apply (finish f _ _ [] r); [|constructor]. rewrite app_nil_l.
      replace ((bs "class " ++ w1 ++ n ++ w2 ++ bs ";") ++ r) with (bs "class " ++ w1 ++ n ++ w2 ++ bs ";" ++ r)
        by (rewrite <- !app_assoc; reflexivity).
      eapply class_first; [reflexivity|]. now apply external_ok.
    - (* class *)
      intros n w1 w2 ps w3 t w4 Hn H1 H2 H3 H4 _ [Ht IH] f r Hf. destruct f as [|f]; [cbn in Hf; lia|].
      apply (finish f _ _ w4 r); [|exact H4].
      replace ((bs "class " ++ w1 ++ n ++ w2 ++ bs "{" ++ w3 ++ t ++ bs "}" ++ w4 ++ bs ";") ++ r)
        with (bs "class " ++ w1 ++ n ++ w2 ++ bs "{" ++ w3 ++ t ++ bs "}" ++ w4 ++ bs ";" ++ r)
        by (rewrite <- !app_assoc; reflexivity).
      eapply class_first; [reflexivity|]. apply local_ok; auto.
      rewrite !app_length in Hf. change (length (bs "class ")) with 6%nat in Hf. lia.
    - (* subclass *)
      intros n w1 w2 v1 p v2 ps w3 t w4 Hn Hp H1 H2 G1 G2 H3 H4 _ [Ht IH] f r Hf. destruct f as [|f]; [cbn in Hf; lia|].
      apply (finish f _ _ w4 r); [|exact H4].
      replace ((bs "class " ++ w1 ++ n ++ w2 ++ bs ":" ++ v1 ++ p ++ v2 ++ bs "{" ++ w3 ++ t ++ bs "}" ++ w4 ++ bs ";") ++ r)
        with (bs "class " ++ w1 ++ n ++ w2 ++ bs ":" ++ v1 ++ p ++ v2 ++ bs "{" ++ w3 ++ t ++ bs "}" ++ w4 ++ bs ";" ++ r)
        by (rewrite <- !app_assoc; reflexivity).
      eapply class_first; [reflexivity|]. apply sublocal_ok; auto.
      rewrite !app_length in Hf. change (length (bs "class ")) with 6%nat in Hf. lia.
    - (* no more properties *)
      split; [constructor|]. intros f k w r Hf Hk Hw Hr. exists (w ++ r).
      destruct f as [|f]; [lia|]. destruct k as [|k]; [lia|].
      assert (Hsr : solid r) by (destruct Hr as [->|[r' ->]]; [intros c r' E; discriminate|apply solid_cons; reflexivity]).
      split; [|split; [now apply trim_blank|congruence]].
      cbn [repeated app]. unfold padded. rewrite trim_blank by auto. rewrite property_none by auto. reflexivity.
    - (* one more property *)
      intros p t w ps u Hp IHp Hw Hu [Ht IHu]. split; [now constructor|].
      intros f k v r Hf Hk Hv Hr. destruct k as [|k]; [lia|].
      destruct (property_solid p t Hp) as [Hne Hs].
      assert (Hlen : (1 <= length t)%nat) by (destruct t; [contradiction|cbn; lia]).
      rewrite !app_length in Hf, Hk.
      assert (Hsr : solid r) by (destruct Hr as [->|[r' ->]]; [intros c r' E; discriminate|apply solid_cons; reflexivity]).
      assert (Hsu : solid (u ++ r)) by (eapply properties_solid; eauto).
      destruct (IHu f k [] r) as (r' & E1 & E2 & E3); [lia|lia|constructor|exact Hr|]. rewrite app_nil_l in E1.
      exists r. cbn [repeated]. unfold padded at 1.
      replace (v ++ (t ++ w ++ u) ++ r) with (v ++ t ++ w ++ u ++ r) by (rewrite <- !app_assoc; reflexivity).
      rewrite trim_blank by auto. rewrite IHp by lia. rewrite trim_blank by auto. rewrite trim_solid by auto.
      rewrite E1. split; [|split; [now apply trim_solid|auto]]. f_equal.
      destruct ps; [|apply E3; discriminate].
      inversion Ht; subst. cbn [app] in E1. destruct k; [lia|]. destruct f; [lia|]. cbn [repeated] in E1. unfold padded in E1.
      rewrite trim_solid in E1 by auto. rewrite property_none in E1 by auto. congruence.
  Qed.

  Lemma config_ok_text c t : config_text f32 agrees c t -> parse_config f32_parse f32_show try_eval t = POk c [].
  Proof.
    intros (w & u & -> & Hw & Hu). unfold parse_config, alt, at_end. unfold pbind at 1.
    destruct (proj2 (proj2 properties_all c u Hu) (S (length (w ++ u))) (S (length (w ++ u))) w [] ) as (r' & E1 & E2 & E3);
      [rewrite app_length; lia|rewrite app_length; lia|exact Hw|auto|].
    rewrite app_nil_r in E1. rewrite E1. destruct c as [|p c].
    - destruct r' as [|c r']; [reflexivity|]. inversion Hu; subst. rewrite app_nil_r.
      unfold padded. pose proof (trim_blank w [] Hw ltac:(intros c0 q E; discriminate)) as E. rewrite app_nil_r in E. rewrite E. reflexivity.
    - rewrite E3 by discriminate. reflexivity.
  Qed.
End Params.
