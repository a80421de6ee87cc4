(** C100: news of releases. *)
From Coq Require Import String.
From Verif Require Import Base.Tactics Base.Bytes Base.Ascii Base.Text Bin.UpdateModel Bin.UpdateSpec.
Local Open Scope N_scope.
Local Open Scope list_scope.

Section Update.
  Context {V : Type} (utf8 : text -> bool) (parse : text -> option V) (gt : V -> V -> bool) (current : V).
  Notation check := (check utf8 parse gt current). Notation after := (after utf8 parse gt current). Notation report := (report utf8 parse gt current).

  Lemma check_state f a : interrupted a = None ->
    fst (check f a) = if needs_check f (now a) then match answer a with None => f | Some s => Some (Latest s (now a)) end else f.
  Proof. intros I. unfold UpdateModel.check. rewrite I. destruct (needs_check f (now a)); [destruct (answer a)|destruct f]; reflexivity. Qed.
  Lemma needs_spec l t : needs_check (Some l) t = (stamp l + half_day <? t).
  Proof. cbn [needs_check]. change (12 * 60 * 60) with half_day. destruct (N.ltb_spec half_day (t - stamp l)), (N.ltb_spec (stamp l + half_day) t); try reflexivity; lia. Qed.
  Notation of_seen := (fun seen : option (N * text) => match seen with Some (t, s) => Some (Latest s t) | None => None end).
  Lemma after_seen l : Forall (fun a => interrupted a = None) l -> forall seen, after (of_seen seen) l = of_seen (last_answer seen l).
  Proof.
    induction 1 as [|a l I F IH]; intros seen; [reflexivity|]. cbn [UpdateModel.after fold_left last_answer] in *. unfold UpdateModel.after in IH. rewrite <- IH. f_equal. rewrite check_state by exact I.
    destruct seen as [[t s]|]; [rewrite needs_spec; cbn [stamp]; destruct (t + half_day <? now a), (answer a); reflexivity|]. cbn [needs_check]. destruct (answer a); reflexivity.
  Qed.
  (** What a run says after any history of runs that were not interrupted: it fails if it needs the service and gets no answer; otherwise it tells of the release
      that the answer that counts names just if it is newer than the program. *)
  Theorem C100_report : forall l a, Forall (fun x => interrupted x = None) (l ++ [a]) ->
    (unanswered (last_answer None l) a -> report None l a = Failed) /\
    forall t s v, ~ unanswered (last_answer None l) a -> last_answer None (l ++ [a]) = Some (t, s) -> names parse s v -> utf8 s = true -> (forall b r, s = bs "v" ++ b :: r -> b < 128) ->
      report None l a = if gt v current then Newer v else UpToDate.
  Proof.
    intros l a F. apply Forall_app in F as (Fl & Fa). apply Forall_inv in Fa. pose proof (after_seen l Fl None) as Af. cbn beta iota in Af. unfold UpdateModel.report. rewrite Af.
    assert (Nd : forall s, needs_check (of_seen s) (now a) = true <-> match s with None => True | Some (t, _) => t + half_day < now a end).
    { intros [[t s]|]; [rewrite needs_spec; cbn [stamp]; apply N.ltb_lt|cbn [needs_check]; tauto]. }
    split.
    - intros (An & Ol). apply Nd in Ol. unfold UpdateModel.check. rewrite Ol, An. reflexivity.
    - intros t s v Nu La (r & -> & Pr) U As.
      assert (Cp : compare utf8 parse gt current (bs "v" ++ r) = if gt v current then Newer v else UpToDate).
      { unfold compare. rewrite U. change (bs "v" ++ r) with (118 :: r). cbn iota beta. destruct r as [|b r]; [now rewrite Pr|]. destruct (N.leb_spec 128 b) as [Hb|Hb]; [specialize (As b r eq_refl); lia|]. cbn [andb]. now rewrite Pr. }
      assert (App : forall seen l1 l2, last_answer seen (l1 ++ l2) = last_answer (last_answer seen l1) l2) by (intros seen l1; revert seen; induction l1 as [|x l1 IH]; intros seen l2; [reflexivity|]; cbn [app last_answer]; apply IH).
      rewrite App in La. cbn [last_answer] in La. unfold UpdateModel.check. rewrite Fa. destruct (last_answer None l) as [[t' s']|] eqn:E.
      + rewrite needs_spec. cbn [stamp]. destruct (N.ltb_spec (t' + half_day) (now a)) as [B|B].
        * destruct (answer a) as [x|] eqn:An; [|exfalso; apply Nu; split; [exact An|exact B]]. injection La as _ ->. exact Cp.
        * cbn [tag snd]. destruct (answer a); injection La as _ ->; exact Cp.
      + cbn [needs_check]. destruct (answer a) as [x|] eqn:An; [injection La as _ ->; exact Cp|discriminate La].
  Qed.
  (** The answer that counts was given, and is from this run or at most half a day old. *)
  Theorem C100_fresh : forall l a t s, last_answer None (l ++ [a]) = Some (t, s) -> ~ unanswered (last_answer None l) a ->
    (exists x, In x (l ++ [a]) /\ now x = t /\ answer x = Some s) /\ (t = now a \/ now a <= t + half_day).
  Proof.
    assert (App : forall l1 seen l2, last_answer seen (l1 ++ l2) = last_answer (last_answer seen l1) l2) by (intros l1; induction l1 as [|x l1 IH]; intros seen l2; [reflexivity|]; cbn [app last_answer]; apply IH).
    assert (In' : forall l seen t s, last_answer seen l = Some (t, s) -> seen = Some (t, s) \/ exists x, In x l /\ now x = t /\ answer x = Some s).
    { induction l as [|x l IH]; intros seen t s E; [now left|]. cbn [last_answer] in E. apply IH in E as [E|(y & I & Q)]; [|right; exists y; split; [now right|exact Q]].
      destruct (answer x) as [w|] eqn:An; [|now left]. destruct seen as [[t' s']|]; [destruct (t' + half_day <? now x); [|now left]|]; injection E as <- <-; right; exists x; split; [now left|auto|now left|auto]. }
    intros l a t s E Nu. split; [destruct (In' _ _ _ _ E) as [K|K]; [discriminate K|exact K]|]. rewrite App in E. cbn [last_answer] in E.
    destruct (last_answer None l) as [[t' s']|] eqn:El.
    - destruct (answer a) as [w|] eqn:An.
      + destruct (N.ltb_spec (t' + half_day) (now a)); injection E as <- <-; [now left|right; assumption].
      + injection E as <- <-. right. destruct (N.leb_spec (now a) (t' + half_day)); [assumption|]. exfalso. apply Nu. split; [exact An|assumption].
    - destruct (answer a); [injection E as <- _; now left|discriminate E].
  Qed.
  (** Between two runs that write an answer down there is more than half a day, whatever happens in between, if the clock is not set back. *)
  Theorem C100_rarely : forall f l1 a l2 b, Forall (fun x => now a <= now x) (l2 ++ [b]) ->
    after f (l1 ++ [a]) <> after f l1 -> answer b <> None -> needs_check (after f (l1 ++ a :: l2)) (now b) = true -> now a + half_day < now b.
  Proof.
    intros f l1 a l2 b F W An Nb.
    assert (App : forall f l1 l2, after f (l1 ++ l2) = after (after f l1) l2) by (intros; unfold UpdateModel.after; apply fold_left_app).
    apply Forall_app in F as (F2 & Fb). apply Forall_inv in Fb.
    assert (S1 : exists l, after f (l1 ++ [a]) = Some l /\ now a <= stamp l).
    { rewrite App in *. cbn [UpdateModel.after fold_left] in *. fold (after f l1) in *. unfold UpdateModel.check in *. destruct (needs_check (after f l1) (now a)); [|exfalso; apply W; destruct (after f l1); reflexivity].
      destruct (answer a); [|exfalso; now apply W]. destruct (interrupted a); eexists; (split; [reflexivity|]); cbn [stamp]; lia. }
    assert (S2 : forall l2 g, Forall (fun x => now a <= now x) l2 -> (exists l, g = Some l /\ now a <= stamp l) -> exists l, after g l2 = Some l /\ now a <= stamp l).
    { clear. induction l2 as [|x l2 IH]; intros g Fa G; [exact G|]. inversion Fa as [|? ? Bx Fa']; subst. cbn [UpdateModel.after fold_left]. apply IH; [exact Fa'|]. destruct G as (l & -> & B).
      unfold UpdateModel.check. destruct (needs_check (Some l) (now x)); [|exists l; auto]. destruct (answer x); [|exists l; auto]. destruct (interrupted x); eexists; (split; [reflexivity|]); cbn [stamp]; lia. }
    replace (l1 ++ a :: l2) with ((l1 ++ [a]) ++ l2) in Nb by (rewrite <- app_assoc; reflexivity). rewrite App in Nb. destruct (S2 l2 _ F2 S1) as (l & El & B). rewrite El, needs_spec in Nb. apply N.ltb_lt in Nb. lia.
  Qed.
  (** A run that is interrupted before anything of the answer is written: every run in the half day that follows, and every one before that, panics. *)
  Theorem C100_interrupted : forall f l a s, (utf8 [] = true) -> needs_check (after f l) (now a) = true -> answer a = Some s -> interrupted a = Some O ->
    forall l2 b, Forall (fun x => now x <= now a + half_day) (l2 ++ [b]) -> report f (l ++ a :: l2) b = Panicked.
  Proof.
    intros f l a s U Nd An In l2 b F. apply Forall_app in F as (F2 & Fb). apply Forall_inv in Fb.
    assert (K : after f (l ++ a :: l2) = Some (Latest [] (now a))).
    { unfold UpdateModel.after. rewrite fold_left_app. cbn [fold_left]. fold (after f l). unfold UpdateModel.check at 2. rewrite Nd, An, In. cbn [firstn fst].
      induction F2 as [|x l2 Bx F2 IH]; [reflexivity|]. cbn [fold_left]. unfold UpdateModel.check at 2. rewrite needs_spec. cbn [stamp]. destruct (N.ltb_spec (now a + half_day) (now x)); [lia|]. exact IH. }
    unfold UpdateModel.report. rewrite K. unfold UpdateModel.check. rewrite needs_spec. cbn [stamp tag]. destruct (N.ltb_spec (now a + half_day) (now b)); [lia|]. unfold compare. rewrite U. reflexivity.
  Qed.
End Update.

(** ** Examples *)
(** Versions of one part. *)
Definition ex_parse (s : text) : option N := match s with [] => None | _ => digits_val 0 s end.
Definition ex_gt (a b : N) : bool := b <? a.
Definition ex_report := report (fun _ => true) ex_parse ex_gt 13.
(** Offline; then version 14 is found and is known for half a day; then 15 is. *)
Definition ex_history : list attempt := [Attempt 0 None None; Attempt 1000 (Some (bs "v14")) None; Attempt 44000 (Some (bs "v15")) None].
Example C100_history :
  Forall (fun a => interrupted a = None) (ex_history ++ [Attempt 44201 (Some (bs "v15")) None]) /\
  map (fun n => ex_report None (firstn n ex_history) (nth n ex_history (Attempt 44201 (Some (bs "v15")) None))) [0; 1; 2; 3]%nat = [Failed; Newer 14; Newer 14; Newer 15] /\
  last_answer None ex_history = Some (1000, bs "v14") /\ names ex_parse (bs "v14") 14.
Proof. split; [repeat constructor|]. split; [vm_compute; reflexivity|]. split; [vm_compute; reflexivity|]. exists (bs "14"). vm_compute. auto. Qed.
(** A run that is interrupted as it writes the answer down: the next one may tell of a version that nobody released. *)
Theorem C100_torn_refuted : ex_report None [Attempt 0 (Some (bs "v139")) (Some 3%nat)] (Attempt 100 None None) = UpToDate /\
  ex_report None [Attempt 0 (Some (bs "v149")) (Some 3%nat)] (Attempt 100 None None) = Newer 14.
Proof. vm_compute. auto. Qed.
(** With the file's time in the future, no run before half a day after it asks. *)
Theorem C100_clock_refuted : ex_report (Some (Latest (bs "v14") 1000000)) [] (Attempt 500000 (Some (bs "v20")) None) = Newer 14.
Proof. vm_compute. reflexivity. Qed.

Print Assumptions C100_report.
Print Assumptions C100_fresh.
Print Assumptions C100_rarely.
Print Assumptions C100_interrupted.
Print Assumptions C100_torn_refuted.
Print Assumptions C100_clock_refuted.
