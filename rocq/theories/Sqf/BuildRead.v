(** What the parser reads is sound: lemmas for C83. *)
From Coq Require Import String.
From Verif Require Import Base.Tactics Base.Bytes Base.Ascii Base.Text Io.Spec Sqf.Ast Sqf.ParseModel Sqf.ParseSpec Sqf.ParseProofs
  Sqf.LexModel Sqf.LexSpec Sqf.LexProofs Sqf.SourceModel Sqf.SourceSpec Sqf.SourceProofs Sqf.SourceBack Sqf.BuildSpec.
From Verif Require Sqf.SerializeSpec Sqf.BuildProofs Sqf.ParseProps.
Local Open Scope N_scope.
Local Open Scope list_scope.
Notation is_text := SerializeSpec.is_text.
Notation command := BuildProofs.command.
Notation sound := BuildProofs.sound.
Notation sound_stmt := BuildProofs.sound_stmt.

(** A token of a text of [size] characters. *)
Definition good (size : N) (t : ltoken) : Prop :=
  fst (snd t) < snd (snd t) /\ snd (snd t) <= size /\
  match fst t with TIdent x => command x | TString s _ => is_text s | TNumber b => b < 2 ^ 32 | _ => True end.

Lemma valid_lower x : is_valid_name x = true -> is_valid_name (to_ascii_lower x) = true.
Proof.
  unfold is_valid_name, to_ascii_lower. induction x as [|c x IH]; [auto|]. cbn [forallb map]. intro H. apply andb_prop in H as [H1 H2]. rewrite IH by exact H2.
  rewrite andb_true_r. unfold is_name_char, lower_char in *. destruct ((65 <=? c) && (c <=? 90)) eqn:E; lia.
Qed.
Lemma name_command x : name_text x -> command x.
Proof.
  intros (c & r & -> & H & F). unfold BuildProofs.command, is_valid_command. rewrite valid_lower; [reflexivity|]. unfold is_valid_name. cbn [forallb].
  apply andb_true_intro. split.
  - unfold letter, is_name_char in *. lia.
  - apply forallb_forall. rewrite Forall_forall in F. intros d I. specialize (F d I). unfold name_char, letter, digit, is_name_char in *. lia.
Qed.

Section Reads.
  Context (parse_f32 : text -> N) (f32_of : N -> N).
  Hypothesis parse32 : forall s, parse_f32 s < 2 ^ 32.
  Hypothesis of32 : forall n, f32_of n < 2 ^ 32.
  Notation written := (written parse_f32 f32_of).
  Notation number_text := (number_text parse_f32 f32_of).
  Notation reads := (reads parse_f32 f32_of).

  Lemma number_some v s : number_text v s -> s <> [] /\ v < 2 ^ 32.
  Proof using parse32 of32.
    intros H. inversion H as [? ? N0|? ? ? Hp|? ? _ [Nb _]|? ? ? ? ? _ [Nb _]]; subst; split; auto.
    - destruct Hp as [-> | ->]; discriminate.
    - intro X. apply app_eq_nil in X as [_ X]. discriminate.
    - intro X. apply app_eq_nil in X as [_ X]. apply app_eq_nil in X as [X _]. contradiction.
  Qed.
  Lemma written_some t s : written t s -> s <> [].
  Proof using parse32 of32.
    intros []; try discriminate.
    - destruct o; discriminate.
    - destruct c; discriminate.
    - destruct H as (c & r & -> & _). discriminate.
    - eapply number_some; eauto.
  Qed.
  Lemma doubled_text q s : is_text (double_quotes q s) -> is_text s.
  Proof.
    unfold SerializeSpec.is_text, double_quotes. induction s as [|c s IH]; [auto|]. cbn [flat_map]. intro H. apply Forall_app in H as [H1 H2].
    constructor; [|auto]. destruct (N.eqb_spec c q); inversion H1; subst; auto.
  Qed.
  Lemma reads_good pos s ts : reads pos s ts -> is_text s -> Forall (good (pos + N.of_nat (length s))) ts.
  Proof using parse32 of32.
    induction 1 as [|pos w t s rest ts W Wr P start stop R IH]; intro T; [constructor|].
    unfold SerializeSpec.is_text in T. apply Forall_app in T as [_ T]. apply Forall_app in T as [T1 T2].
    assert (s <> []) as N0 by (eapply written_some; eauto). assert (0 < length s)%nat by (destruct s; [contradiction|cbn; lia]).
    assert (pos + N.of_nat (length (w ++ s ++ rest)) = stop + N.of_nat (length rest)) as -> by (subst stop start; rewrite !app_length; lia).
    constructor; [|now apply IH]. unfold good. cbn [fst snd]. split; [subst stop; lia|]. split; [lia|].
    destruct t; auto.
    - inversion Wr as [| | | | | |? ? Nt]; subst. eapply number_some; eauto.
    - inversion Wr; subst. now apply name_command.
    - inversion Wr as [| | | | |? ? E1 E2|]; subst. unfold quoted in T1. apply Forall_app in T1 as [_ T1]. apply Forall_app in T1 as [T1 _]. eapply doubled_text; exact T1.
  Qed.
End Reads.

Section Sound.
  Context (db : database) (ex : span -> text) (size : N).
  Lemma infix_command o n b : infix db o = Some (n, b) -> good size (o, (0, 1)) \/ (exists sp, good size (o, sp)) -> command (binary_str b).
  Proof.
    intros E H. assert (match o with TIdent x => command x | _ => True end) as K.
    { destruct H as [(_ & _ & H)|(sp & _ & _ & H)]; cbn [fst] in H; destruct o; auto. }
    destruct o as [|op| | |x|]; try discriminate.
    - destruct op; cbn in E; try discriminate; injection E as <- <-; reflexivity.
    - cbn [infix] in E. destruct (reserved x) as [[k c]|] eqn:R.
      + injection E as <- <-. unfold reserved in R. repeat match type of R with (if ?b then _ else _) = _ => destruct b; [injection R as <- <-; reflexivity|] end. discriminate.
      + destruct (has_binary db x); [|discriminate]. injection E as <- <-. exact K.
  Qed.
  Lemma prefix_command o u sp : prefix db o = Some u -> good size (o, sp) -> command (unary_str u).
  Proof.
    intros E (_ & _ & K). destruct o as [|op| | |x|]; try discriminate.
    - destruct op; cbn in E; try discriminate; injection E as <-; reflexivity.
    - cbn [prefix] in E. destruct (has_unary db x); [|discriminate]. injection E as <-. exact K.
  Qed.
  Lemma operand_sound o sp e : operand db o sp e -> good size (o, sp) -> sound size e.
  Proof. intros H (L1 & L2 & K). cbn [fst snd] in *. destruct H; constructor; auto; lia. Qed.
  Lemma extent_start ts sp : ts <> [] -> Forall (good size) ts -> fst (extent ts sp) < size.
  Proof. intros H F. destruct ts as [|t ts]; [contradiction|]. apply Forall_inv in F as (F1 & F2 & _). cbn [extent fst]. lia. Qed.
  Lemma list_nonempty es ts : spells_list db ex es ts -> es <> [] -> ts <> [].
  Proof.
    intros H N0. destruct H as [|e ts H|e ts sp es ts' _ H _]; [contradiction| |]; [now apply (spells_nonempty db ex) in H|].
    destruct ts; discriminate.
  Qed.

  Lemma spelled_sound :
    (forall n e ts, spells db ex n e ts -> forall q, forwards q ts -> Forall (good size) ts -> short_arrays e = true -> sound size e) /\
    (forall es ts, spells_list db ex es ts -> forall q, forwards q ts -> Forall (good size) ts -> forallb short_arrays es = true -> Forall (sound size) es) /\
    (forall s ts, spells_statement db ex s ts -> forall q, forwards q ts -> Forall (good size) ts -> short_arrays_stmt s = true -> sound_stmt size s) /\
    (forall ss ts, spells_statements db ex ss ts -> forall q, forwards q ts -> Forall (good size) ts -> forallb short_arrays_stmt ss = true -> Forall (sound_stmt size) ss).
  Proof.
    apply (spells_mutual db ex
      (fun n e ts _ => forall q, forwards q ts -> Forall (good size) ts -> short_arrays e = true -> sound size e)
      (fun es ts _ => forall q, forwards q ts -> Forall (good size) ts -> forallb short_arrays es = true -> Forall (sound size) es)
      (fun s ts _ => forall q, forwards q ts -> Forall (good size) ts -> short_arrays_stmt s = true -> sound_stmt size s)
      (fun ss ts _ => forall q, forwards q ts -> Forall (good size) ts -> forallb short_arrays_stmt ss = true -> Forall (sound_stmt size) ss)).
    - intros n c a b o sp ta tb E _ IH1 _ IH2 q Fw G S. change (short_arrays a && short_arrays b = true) in S. apply andb_prop in S as [S1 S2].
      apply Forall_app in G as [G1 G2]. inversion G2 as [|? ? G3 G4]; subst. pose proof (forwards_head _ _ _ Fw) as F1. apply forwards_tail in Fw as (q' & _ & Fw). cbn [forwards] in Fw. destruct Fw as (_ & _ & F2).
      constructor; eauto; [eapply infix_command; eauto|]. destruct G3 as (L1 & L2 & _). cbn [fst snd] in *. lia.
    - intros n e ts _ _ IH. exact IH.
    - intros c e o sp ts E _ IH q Fw G S. change (short_arrays e = true) in S. inversion G as [|? ? G3 G4]; subst. cbn [forwards] in Fw. destruct Fw as (_ & _ & F2).
      constructor; eauto; [eapply prefix_command; eauto|]. destruct G3 as (L1 & L2 & _). cbn [fst snd] in *. lia.
    - intros o sp e H q _ G _. apply Forall_inv in G. eapply operand_sound; eauto.
    - intros e ts sp sp' _ IH q Fw G S. apply Forall_inv_tail in G. apply Forall_app in G as [G _]. cbn [forwards] in Fw. destruct Fw as (_ & _ & Fw).
      apply forwards_head in Fw. eauto.
    - intros es ts sp sp' H IH q Fw G S. apply Forall_inv_tail in G. apply Forall_app in G as [G _]. cbn [forwards] in Fw. destruct Fw as (_ & _ & Fw).
      apply forwards_head in Fw. change ((N.of_nat (length es) <=? 65535) && forallb short_arrays es = true) in S. apply andb_prop in S as [S1 S2].
      apply N.leb_le in S1. constructor; eauto; [change (2 ^ 16) with 65536; lia|]. intro N0. apply extent_start; [eapply list_nonempty; eauto|exact G].
    - intros ss ts sp sp' H IH q Fw G S. apply Forall_inv_tail in G. apply Forall_app in G as [G G'']. cbn [forwards] in Fw. destruct Fw as (_ & _ & Fw).
      apply forwards_head in Fw. change (forallb short_arrays_stmt ss = true) in S. constructor; eauto.
      destruct ts as [|t ts]; [|eapply extent_forwards; [exact Fw|discriminate]]. cbn [extent]. apply Forall_inv in G'' as (L & _). cbn [fst snd] in L. lia.
    - constructor.
    - intros e ts _ IH q Fw G S. cbn [forallb] in S. rewrite andb_true_r in S. constructor; eauto.
    - intros e ts sp es ts' _ _ IH1 _ IH2 q Fw G S. cbn [forallb] in S. apply andb_prop in S as [S1 S2]. apply Forall_app in G as [G1 G2]. apply Forall_inv_tail in G2.
      pose proof (forwards_head _ _ _ Fw) as F1. apply forwards_tail in Fw as (q' & _ & Fw). cbn [forwards] in Fw. destruct Fw as (_ & _ & F2). constructor; eauto.
    - intros x e sp sp' ts _ _ _ IH q Fw G S. change (short_arrays e = true) in S. pose proof (extent_start ((TIdent x, sp) :: (TOp OAssign, sp') :: ts) sp ltac:(discriminate) G) as L.
      inversion G as [|? ? G1 G2]; subst. apply Forall_inv_tail in G2. cbn [forwards] in Fw. destruct Fw as (_ & _ & _ & _ & Fw). constructor; eauto. apply G1.
    - intros p x e sp sp' sp'' ts _ _ _ IH q Fw G S. change (short_arrays e = true) in S. pose proof (extent_start ((TIdent p, sp) :: (TIdent x, sp') :: (TOp OAssign, sp'') :: ts) sp ltac:(discriminate) G) as L.
      inversion G as [|? ? G1 G2]; subst. inversion G2 as [|? ? G3 G4]; subst. apply Forall_inv_tail in G4. cbn [forwards] in Fw. destruct Fw as (_ & _ & _ & _ & _ & _ & Fw). constructor; eauto. apply G3.
    - intros e ts sp _ IH q Fw G S. constructor. eapply IH; eauto.
    - constructor.
    - intros s ts _ IH q Fw G S. cbn [forallb] in S. rewrite andb_true_r in S. constructor; eauto.
    - intros s ts sp _ IH q Fw G S. cbn [forallb] in S. rewrite andb_true_r in S. apply Forall_app in G as [G _]. apply forwards_head in Fw. constructor; eauto.
    - intros s ts sp ss ts' _ _ IH1 _ IH2 q Fw G S. cbn [forallb] in S. apply andb_prop in S as [S1 S2]. apply Forall_app in G as [G1 G2]. apply Forall_inv_tail in G2.
      pose proof (forwards_head _ _ _ Fw) as F1. apply forwards_tail in Fw as (q' & _ & Fw). cbn [forwards] in Fw. destruct Fw as (_ & _ & F2). constructor; eauto.
  Qed.
End Sound.

Lemma read_sound wiki custom parse_f32 f32_of s r :
  (forall e, In e custom -> In CallBinary (snd e) -> reserved (fst e) = None) ->
  (forall s, parse_f32 s < 2 ^ 32) -> (forall n, f32_of n < 2 ^ 32) -> is_text s ->
  read_sqf (a3_with_workspace wiki custom) parse_f32 f32_of s = Some r -> short_script r ->
  source r = s /\ Forall (sound_stmt (N.of_nat (length s))) (content r).
Proof.
  intros Hc P32 O32 T R S. apply (read_iff _ parse_f32 f32_of (ParseProps.custom_apart wiki custom Hc)) in R as (ts & R & Src & Sp & _).
  split; [exact Src|]. pose proof (reads_good parse_f32 f32_of P32 O32 _ _ _ R T) as G. apply reads_forwards in R as [F _]. apply (forwards_strip _ true) in F.
  change (0 + N.of_nat (length s)) with (N.of_nat (length s)) in G.
  destruct (spelled_sound (a3_with_workspace wiki custom) (between s) (N.of_nat (length s))) as (_ & _ & _ & K).
  eapply K; eauto. rewrite Forall_forall in G |- *. intros t I. apply strip_in in I. auto.
Qed.
