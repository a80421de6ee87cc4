(** The parts of Rust's [str] and [char] the code base uses, on strings as lists of Unicode scalar values. *)
From Verif Require Import Base.Tactics Base.Bytes Base.Sort.
Local Open Scope N_scope.

Notation text := (list N).

(** [char::is_whitespace] (Unicode White_Space). *)
Definition is_ws (c : N) : bool :=
  ((9 <=? c) && (c <=? 13)) || (c =? 32) || (c =? 133) || (c =? 160) || (c =? 5760)
  || ((8192 <=? c) && (c <=? 8202)) || (c =? 8232) || (c =? 8233) || (c =? 8239) || (c =? 8287) || (c =? 12288).

(** [str::trim_start], [trim_end], [trim]. *)
Fixpoint trim_start (s : text) : text :=
  match s with
  | [] => []
  | c :: r => if is_ws c then trim_start r else s
  end.
Definition trim_end (s : text) : text := rev (trim_start (rev s)).
Definition trim (s : text) : text := trim_end (trim_start s).

(** [str::contains(char)]. *)
Definition contains (c : N) (s : text) : bool := existsb (N.eqb c) s.

(** [str::split(char)]: at least one part. *)
Fixpoint split_on (c : N) (s : text) : list text :=
  match s with
  | [] => [[]]
  | x :: r =>
      if x =? c then [] :: split_on c r
      else match split_on c r with
           | p :: ps => (x :: p) :: ps
           | [] => [[x]]
           end
  end.

(** [slice::join]. *)
Fixpoint join (sep : text) (ps : list text) : text :=
  match ps with
  | [] => []
  | [p] => p
  | p :: rest => p ++ sep ++ join sep rest
  end.

(** [str::split_once(char)] and [rsplit_once(char)]. *)
Fixpoint split_once (c : N) (s : text) : option (text * text) :=
  match s with
  | [] => None
  | x :: r =>
      if x =? c then Some ([], r)
      else match split_once c r with
           | Some (a, b) => Some (x :: a, b)
           | None => None
           end
  end.
Definition rsplit_once (c : N) (s : text) : option (text * text) :=
  match split_once c (rev s) with
  | Some (a, b) => Some (rev b, rev a)
  | None => None
  end.

(** [str::starts_with(&str)]. *)
Fixpoint starts_with (p s : text) : bool :=
  match p, s with
  | [], _ => true
  | x :: p', y :: s' => (x =? y) && starts_with p' s'
  | _ :: _, [] => false
  end.

(** [str::split_once(&str)] for a non-empty pattern. *)
Fixpoint split_once_str (p s : text) : option (text * text) :=
  if starts_with p s then Some ([], skipn (length p) s)
  else match s with
       | [] => None
       | x :: r =>
           match split_once_str p r with
           | Some (a, b) => Some (x :: a, b)
           | None => None
           end
       end.

(** [str::lines]: split after each '\n'; a trailing empty piece is dropped; one '\r' before the newline
    is dropped. (A final line without '\n' keeps its '\r'.) *)
Definition strip_cr (s : text) : text :=
  match rev s with 13 :: r => rev r | _ => s end.
Fixpoint lines_go (ps : list text) : list text :=
  match ps with
  | [] => []
  | [p] => match p with [] => [] | _ => [p] end
  | p :: rest => strip_cr p :: lines_go rest
  end.
Definition lines (s : text) : list text := lines_go (split_on 10 s).

(** Decimal digits of a number: the [Display] of an unsigned integer. *)
Fixpoint dec_go (fuel : nat) (n : N) (acc : text) : text :=
  match fuel with
  | O => acc
  | S f => let acc' := (48 + n mod 10) :: acc in if n / 10 =? 0 then acc' else dec_go f (n / 10) acc'
  end.
Definition dec (n : N) : text := dec_go (S (N.to_nat (N.log2 n))) n [].

(** [u32::from_str]: an optional '+', then at least one digit, no overflow. *)
Definition is_digit (c : N) : bool := (48 <=? c) && (c <=? 57).
Fixpoint digits_val (acc : N) (s : text) : option N :=
  match s with
  | [] => Some acc
  | c :: r => if is_digit c then digits_val (acc * 10 + (c - 48)) r else None
  end.
Definition parse_u32 (s : text) : option N :=
  let ds := match s with 43 :: r => r | _ => s end in
  match ds with
  | [] => None
  | _ => match digits_val 0 ds with
         | Some v => if v <? 2 ^ 32 then Some v else None
         | None => None
         end
  end.

(** ** Lemmas *)

Lemma contains_spec c s : contains c s = true <-> In c s.
Proof.
  unfold contains. rewrite existsb_exists. split.
  - intros (x & Hx & E). apply N.eqb_eq in E. now subst.
  - intro H. exists c. split; [auto|apply N.eqb_refl].
Qed.
Lemma contains_false c s : contains c s = false <-> ~ In c s.
Proof. rewrite <- contains_spec. destruct (contains c s); intuition congruence. Qed.

Lemma split_on_nonempty c s : split_on c s <> [].
Proof. destruct s as [|x r]; cbn; [discriminate|]. destruct (x =? c); [discriminate|]. destruct (split_on c r); discriminate. Qed.

Lemma join_split c s : join [c] (split_on c s) = s.
Proof.
  induction s as [|x r IH]; [reflexivity|]. cbn [split_on].
  pose proof (split_on_nonempty c r) as Hn.
  destruct (N.eqb_spec x c) as [->|E].
  - destruct (split_on c r) as [|p ps]; [contradiction|]. change (c :: join [c] (p :: ps) = c :: r). now rewrite IH.
  - destruct (split_on c r) as [|p ps]; [contradiction|]. destruct ps; cbn [join app] in *; congruence.
Qed.

Lemma split_on_none c s : ~ In c s -> split_on c s = [s].
Proof.
  induction s as [|x r IH]; intro H; [reflexivity|]. cbn [split_on].
  destruct (N.eqb_spec x c) as [->|E]; [exfalso; apply H; now left|].
  rewrite IH; [reflexivity|]. intro Hi. apply H. now right.
Qed.

Lemma split_on_app c a b : ~ In c a -> split_on c (a ++ c :: b) = a :: split_on c b.
Proof.
  induction a as [|x r IH]; intro H; cbn [app split_on].
  - now rewrite N.eqb_refl.
  - destruct (N.eqb_spec x c) as [->|E]; [exfalso; apply H; now left|].
    rewrite IH; [reflexivity|]. intro Hi. apply H. now right.
Qed.

Lemma split_on_parts c s : Forall (fun p => ~ In c p) (split_on c s).
Proof.
  induction s as [|x r IH]; [repeat constructor; intros []|]. cbn [split_on].
  destruct (N.eqb_spec x c) as [->|E].
  - constructor; [intros []|auto].
  - destruct (split_on c r) as [|p ps]; inversion IH; subst.
    + repeat constructor. intros [H|[]]; auto.
    + constructor; [|auto]. intros [H|H]; auto.
Qed.

Lemma split_once_none c s : split_once c s = None <-> ~ In c s.
Proof.
  induction s as [|x r IH]; cbn [split_once]; [tauto|]. destruct (N.eqb_spec x c) as [->|E].
  - split; [discriminate|]. intro H. exfalso. apply H. now left.
  - destruct (split_once c r) as [[a b]|]; split; try discriminate.
    + intro H. exfalso. destruct IH as [_ IH]. discriminate IH. intro Hi. apply H. now right.
    + intros _ [H|H]; [auto|]. now apply IH.
    + reflexivity.
Qed.

Lemma split_once_some c s a b : split_once c s = Some (a, b) <-> s = a ++ c :: b /\ ~ In c a.
Proof.
  revert a b. induction s as [|x r IH]; intros a b; cbn [split_once].
  - split; [discriminate|]. intros [H _]. destruct a; discriminate.
  - destruct (N.eqb_spec x c) as [->|E].
    + split.
      * intro H. injection H as <- <-. split; [reflexivity|intros []].
      * intros [H Hn]. destruct a as [|y a]; cbn [app] in H; [now injection H as ->|].
        injection H as <- H. exfalso. apply Hn. now left.
    + destruct (split_once c r) as [[a' b']|] eqn:Es.
      * split.
        -- intro H. injection H as <- <-. destruct (proj1 (IH a' b') eq_refl) as [-> Hn].
           split; [reflexivity|]. intros [H|H]; auto.
        -- intros [H Hn]. destruct a as [|y a]; cbn [app] in H; [injection H as -> _; contradiction|].
           injection H as <- H. assert (Hn' : ~ In c a) by (intro Hi; apply Hn; now right).
           pose proof (proj2 (IH a b) (conj H Hn')) as E2. congruence.
      * split; [discriminate|]. intros [H Hn]. destruct a as [|y a]; cbn [app] in H; [injection H as -> _; contradiction|].
        injection H as <- H. assert (Hn' : ~ In c a) by (intro Hi; apply Hn; now right).
        pose proof (proj2 (IH a b) (conj H Hn')) as E2. congruence.
Qed.

Lemma starts_with_spec p s : starts_with p s = true <-> exists r, s = p ++ r.
Proof.
  revert s. induction p as [|x p IH]; intros s; cbn [starts_with app].
  - split; [eauto|auto].
  - destruct s as [|y s]; [split; [discriminate|intros [r H]; discriminate]|].
    rewrite Bool.andb_true_iff, IH, N.eqb_eq. split.
    + intros [-> [r ->]]. eauto.
    + intros [r H]. injection H as -> ->. eauto.
Qed.

Lemma lines_single s : s <> [] -> ~ In 10 s -> lines s = [s].
Proof. intros Hne H. unfold lines. rewrite split_on_none by auto. destruct s; [contradiction|reflexivity]. Qed.

(** *** Trimming *)
Lemma trim_start_nows s : (forall c r, s = c :: r -> is_ws c = false) -> trim_start s = s.
Proof. destruct s as [|c r]; [reflexivity|]. intro H. cbn. now rewrite (H c r eq_refl). Qed.

Lemma trim_start_idem_hd s c r : trim_start s = c :: r -> is_ws c = false.
Proof.
  induction s as [|x s IH]; cbn; [discriminate|]. destruct (is_ws x) eqn:E; [exact IH|].
  intro H. injection H as <- _. exact E.
Qed.

Lemma trim_start_suffix s : exists w, s = w ++ trim_start s /\ Forall (fun c => is_ws c = true) w.
Proof.
  induction s as [|x s (w & E & F)]; [exists []; auto|]. cbn. destruct (is_ws x) eqn:Ex.
  - exists (x :: w). cbn. split; [congruence|auto].
  - exists []. auto.
Qed.

(** A string that neither starts nor ends with white space. *)
Definition trimmed (s : text) : Prop :=
  (forall c r, s = c :: r -> is_ws c = false) /\ (forall c r, s = r ++ [c] -> is_ws c = false).

Lemma trim_end_spec s : exists w, s = trim_end s ++ w /\ Forall (fun c => is_ws c = true) w.
Proof.
  destruct (trim_start_suffix (rev s)) as (w & E & F). exists (rev w). unfold trim_end. split.
  - rewrite <- rev_app_distr, <- E. now rewrite rev_involutive.
  - now apply Forall_rev.
Qed.

Lemma trim_end_last s c r : trim_end s = r ++ [c] -> is_ws c = false.
Proof.
  unfold trim_end. intro H. apply (f_equal (@rev N)) in H. rewrite rev_involutive, rev_app_distr in H. cbn in H.
  eapply trim_start_idem_hd. exact H.
Qed.

Lemma trim_trimmed s : trimmed (trim s).
Proof.
  split.
  - intros c r H. unfold trim in H. destruct (trim_end_spec (trim_start s)) as (w & E & _).
    rewrite H in E. cbn in E. eapply trim_start_idem_hd. exact E.
  - intros c r H. eapply trim_end_last. exact H.
Qed.

Lemma trim_fixed s : trimmed s -> trim s = s.
Proof.
  intros [H1 H2]. unfold trim. rewrite trim_start_nows by auto. unfold trim_end.
  rewrite trim_start_nows; [apply rev_involutive|].
  intros c r E. apply (H2 c (rev r)). apply (f_equal (@rev N)) in E. now rewrite rev_involutive in E.
Qed.

Lemma trim_decompose s : exists w1 w2, s = w1 ++ trim s ++ w2 /\
  Forall (fun c => is_ws c = true) w1 /\ Forall (fun c => is_ws c = true) w2.
Proof.
  destruct (trim_start_suffix s) as (w1 & E1 & F1). destruct (trim_end_spec (trim_start s)) as (w2 & E2 & F2).
  exists w1, w2. unfold trim. rewrite <- E2. auto.
Qed.

Lemma trim_in c s : In c (trim s) -> In c s.
Proof. destruct (trim_decompose s) as (w1 & w2 & E & _). intro H. rewrite E. rewrite !in_app_iff. auto. Qed.

(** *** Decimal *)
Definition all_digits (s : text) : Prop := Forall (fun c => is_digit c = true) s.

Lemma digits_val_app a b : forall acc, digits_val acc (a ++ b) =
  match digits_val acc a with Some v => digits_val v b | None => None end.
Proof. induction a as [|c a IH]; intro acc; cbn; [reflexivity|]. destruct (is_digit c); [apply IH|reflexivity]. Qed.

Lemma dec_go_spec fuel : forall n acc, n < 2 ^ N.of_nat fuel -> (0 < fuel)%nat ->
  exists ds, dec_go fuel n acc = ds ++ acc /\ ds <> [] /\ all_digits ds /\
    (forall a, digits_val a ds = Some (a * 10 ^ blen ds + n)).
Proof.
  induction fuel as [|f IH]; intros n acc Hn Hf; [lia|]. cbn [dec_go].
  assert (Hd : is_digit (48 + n mod 10) = true).
  { unfold is_digit. pose proof (N.mod_lt n 10). apply andb_true_intro. split; apply N.leb_le; lia. }
  destruct (N.eqb_spec (n / 10) 0) as [E|E].
  - exists [48 + n mod 10]. split; [reflexivity|]. split; [discriminate|]. split; [repeat constructor; auto|].
    intro a. cbn [digits_val]. rewrite Hd. f_equal. unfold blen. cbn [length]. change (N.of_nat 1) with 1.
    rewrite N.pow_1_r. lia.
  - destruct f as [|f'].
    { change (N.of_nat 1) with 1 in Hn. rewrite N.pow_1_r in Hn. lia. }
    destruct (IH (n / 10) ((48 + n mod 10) :: acc)) as (ds & E1 & E2 & E3 & E4); [|lia|].
    { rewrite Nat2N.inj_succ, N.pow_succ_r' in Hn. lia. }
    exists (ds ++ [48 + n mod 10]). split; [rewrite <- app_assoc; exact E1|].
    split; [destruct ds; discriminate|].
    split; [apply Forall_app; split; [exact E3|repeat constructor; auto]|].
    intro a. rewrite digits_val_app, E4. cbn [digits_val]. rewrite Hd. f_equal.
    rewrite blen_app. change (blen [48 + n mod 10]) with 1. rewrite N.pow_add_r, N.pow_1_r.
    remember (10 ^ blen ds) as w. clear - n. pose proof (N.div_mod n 10). nia.
Qed.

Lemma dec_spec n : exists ds, dec n = ds /\ ds <> [] /\ all_digits ds /\ digits_val 0 ds = Some n.
Proof.
  unfold dec. destruct (dec_go_spec (S (N.to_nat (N.log2 n))) n []) as (ds & E1 & E2 & E3 & E4); [|lia|].
  - rewrite Nat2N.inj_succ, N2Nat.id. destruct (N.eq_dec n 0) as [->|Hn]; [reflexivity|].
    apply N.log2_spec. lia.
  - exists ds. rewrite E1, app_nil_r, E4. auto.
Qed.

Lemma dec_digits n : all_digits (dec n).
Proof. destruct (dec_spec n) as (ds & -> & _ & H & _). exact H. Qed.
Lemma dec_nonempty n : dec n <> [].
Proof. destruct (dec_spec n) as (ds & -> & H & _). exact H. Qed.

Lemma dec_not_in n c : is_digit c = false -> ~ In c (dec n).
Proof.
  intros Hc Hi. pose proof (dec_digits n) as H. unfold all_digits in H. rewrite Forall_forall in H.
  rewrite (H c Hi) in Hc. discriminate.
Qed.

Lemma parse_dec n : n < 2 ^ 32 -> parse_u32 (dec n) = Some n.
Proof.
  intro Hn. unfold parse_u32. destruct (dec_spec n) as (ds & -> & Hne & Hd & Hv).
  destruct ds as [|c r]; [contradiction|].
  assert (Hc : is_digit c = true) by (inversion Hd; auto).
  assert (E : match c :: r with 43 :: r' => r' | _ => c :: r end = c :: r).
  { unfold is_digit in Hc. apply andb_prop in Hc. destruct Hc as [Hc _]. apply N.leb_le in Hc.
    destruct c as [|q]; [lia|]. repeat (destruct q as [q|q|]; try reflexivity; try lia). }
  cbv zeta. rewrite E. rewrite Hv. apply N.ltb_lt in Hn. now rewrite Hn.
Qed.

Lemma parse_u32_bound s n : parse_u32 s = Some n -> n < 2 ^ 32.
Proof.
  unfold parse_u32. cbv zeta. destruct (match s with 43 :: r => r | _ => s end); [discriminate|].
  destruct (digits_val 0 _) as [v|]; [|discriminate]. destruct (N.ltb_spec v (2 ^ 32)); [|discriminate].
  intro E. apply Some_inj in E. now subst.
Qed.
