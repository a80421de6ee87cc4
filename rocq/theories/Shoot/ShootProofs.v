(** The invariant of a photoshoot session: at every time one token is on its way, as a message or as a script that runs. *)
From Coq Require Import String.
From Verif Require Import Base.Tactics Base.Bytes Base.Sort Base.Ascii Base.Text.
From Verif Require Import Shoot.ShootModel Shoot.ShootSpec Shoot.WireProofs.
Local Open Scope N_scope.
Local Open Scope list_scope.

Definition h_writes (a : hemtt_at) : list bytes := match a with Writing ws => ws | _ => [] end.
Definition h_len (a : hemtt_at) : option N := match a with Reading n => Some n | _ => None end.
Definition e_writes (a : ext_at) : list bytes := match a with Sending ws => ws | _ => [] end.
Definition e_len (a : ext_at) : option N := match a with Receiving n => Some n | _ => None end.
Definition talk (m : to_hemtt) : bool := match m with Mission _ | Log _ => false | _ => true end.
Definition harmless (m : to_hemtt) : Prop := match m with Mission p => split_once_str (bs "\autotest\") p = None | _ => True end.
Definition quiet (m : to_hemtt) : Prop := harmless m /\ talk m = false.

Lemma find_class_in m k t : find_class m k = Some t -> In (k, t) m.
Proof.
  unfold find_class. destruct (find _ m) as [[k' t']|] eqn:F; [|discriminate]. intros [= <-]. apply find_some in F as [I E]. cbn [fst] in E. apply eqb_bytes_spec in E. now subst.
Qed.
Lemma find_class_some m k : In k (map fst m) -> exists t, find_class m k = Some t.
Proof.
  intros I. unfold find_class. destruct (find _ m) as [x|] eqn:F; [eauto|]. apply in_map_iff in I as (x & <- & I). apply (find_none _ _ F) in I. now rewrite eqb_bytes_refl in I.
Qed.
Lemma find_class_nodup m k t : NoDup (map fst m) -> In (k, t) m -> find_class m k = Some t.
Proof.
  induction m as [|[k' t'] m IH]; [intros _ []|]. cbn [map fst]. intros N I. inversion N as [|? ? N1 N2]; subst. unfold find_class. cbn [find fst]. destruct I as [[= -> ->]|I].
  - now rewrite eqb_bytes_refl.
  - destruct (eqb_bytes k' k) eqn:E; [apply eqb_bytes_spec in E; subst; destruct N1; now apply (in_map fst) in I|]. exact (IH N2 I).
Qed.

Section Session.
  Context (write_g : to_game -> bytes) (read_g : bytes -> option to_game) (write_h : to_hemtt -> bytes) (read_h : bytes -> option to_hemtt).
  Context (weapons previews : list (text * text)) (there : text -> bool) (uniform : text -> bool).
  Context (ours before : text).
  Hypothesis GR : forall m, read_g (write_g m) = Some m.
  Hypothesis HR : forall m, read_h (write_h m) = Some m.
  Context (say_ok : to_hemtt -> Prop).
  Hypothesis GS : forall m, In m (requests weapons previews) -> blen (write_g m) < 2 ^ 32 - 1.
  Hypothesis HS : forall m, say_ok m -> blen (write_h m) < 2 ^ 32 - 1.
  Hypothesis SayR : say_ok Ready.
  Hypothesis SayP : say_ok Previews.
  Hypothesis SayW : forall w, In w (rev (map fst weapons)) -> say_ok (Shot w) /\ forall u, Forall say_ok (logs w u).
  Hypothesis GF : forall m, write_g m <> [].
  Hypothesis HF : forall m, write_h m <> [].
  Hypothesis ND : NoDup (map fst previews).
  Hypothesis Ours : split_once_str (bs "\autotest\") ours = Some (before, our_mission ++ [92]).

  Notation act := (act write_g read_g write_h read_h weapons previews there uniform).
  Notation receive := (receive write_g weapons previews there).
  Notation incoming := (incoming weapons previews there).
  Notation exists_now := (exists_now there).

  Definition P : list text := map fst previews.
  Definition W : list text := rev (map fst weapons).
  Definition opening : list to_game := match previews with [] => [] | _ => map Preview P ++ [PreviewRun] end.
  Lemma requests_is : requests weapons previews = opening ++ map Weapon W ++ [Done].
  Proof. reflexivity. Qed.

  Definition previewed (d : disk) : Prop := forall c t, In (c, t) previews -> In (t, c) (made d).
  Definition handled (a : list text) (d : disk) : Prop := forall w t, In w a -> In (w, t) weapons -> find_class weapons w = Some t -> exists_now d t = true.
  Fixpoint sound (m : list (text * text)) : Prop :=
    match m with
    | [] => True
    | (t, c) :: m' => (In (c, t) previews \/ (In (c, t) weapons /\ there t = false /\ ~ In t (map fst m'))) /\ sound m'
    end.

  Inductive ph := PA | PB | PC (rest : list text) | PD | PE | PF (a : list text) (w : text) | PG (a : list text) (w : text) | PR (a : list text) (w : text) | PX (a : list text) (w : text) | PN | PZ.
  Definition can (a : list text) : Prop := Forall (fun w => uniform w = true) a.
  Definition asked (a : list text) (w : text) (p : list text) (sent : list to_game) (d : disk) : Prop :=
    W = a ++ w :: p /\ sent = opening ++ map Weapon (a ++ [w]) /\ handled a d /\ can a /\ previewed d.
  Definition phase (x : ph) (g : game) (p : list text) (sent : list to_game) (d : disk) (T : list to_game) (U : list to_hemtt) : Prop :=
    match x with
    | PA => g = Game false [] O [] false false /\ p = W /\ sent = [] /\ made d = [] /\ T = [] /\ U = []
    | PB => g = Game true [] O [] false false /\ p = W /\ sent = [] /\ made d = [] /\ T = [] /\ U = [Ready]
    | PC rest => previews <> [] /\ p = W /\ sent = opening /\ made d = [] /\ T = map Preview rest ++ [PreviewRun] /\ U = [] /\
        exists poses, P = poses ++ rest /\ g = Game true poses O [] false false
    | PD => previews <> [] /\ g = Game true P 1 [] false false /\ p = W /\ sent = opening /\ made d = [] /\ T = [] /\ U = []
    | PE => previews <> [] /\ g = Game true P O [] false false /\ p = W /\ sent = opening /\ made d = [] /\ stills d = P /\ T = [] /\ U = [Previews]
    | PF a w => g = Game true P O [] false false /\ asked a w p sent d /\ T = [Weapon w] /\ U = []
    | PG a w => g = Game true P O [w] false false /\ asked a w p sent d /\ uniform w = true /\ T = [] /\ U = []
    | PR a w => g = Game true P O [] false false /\ asked a w p sent d /\ uniform w = true /\ In w (shots d) /\ T = [] /\ U = [Shot w]
    | PX a w => g = Game true P O [] false false /\ asked a w p sent d /\ uniform w = false /\ T = [] /\ U = []
    | PN => g = Game true P O [] false false /\ p = [] /\ sent = opening ++ map Weapon W ++ [Done] /\ handled W d /\ can W /\ previewed d /\ T = [Done] /\ U = []
    | PZ => (exists ex, g = Game true P O [] true ex) /\ p = [] /\ sent = opening ++ map Weapon W ++ [Done] /\ handled W d /\ can W /\ previewed d /\ T = [] /\ U = []
    end.

  Definition heard (cur : option text) (U : list to_hemtt) : Prop :=
    (cur = Some our_mission /\ Forall harmless U) \/
    exists a b, U = a ++ Mission ours :: b /\ Forall quiet a /\ Forall harmless b.

  Record inv (s : state) (x : ph) (u : list to_hemtt) (t : list to_game) : Prop := {
    i_up : wire write_h (e_writes (e_at (E s))) (up s) (h_len (h_at (H s))) u;
    i_dn : (e_at (E s) = Stopped /\ t <> []) \/ (e_at (E s) <> Stopped /\ wire write_g (h_writes (h_at (H s))) (down s) (e_len (e_at (E s))) t);
    i_ph : phase x (G s) (pending (H s)) (sent (H s)) (D s) (calls (E s) ++ t) (filter talk (u ++ queue (E s)));
    i_ok : Forall say_ok (u ++ queue (E s));
    i_heard : heard (current (H s)) (u ++ queue (E s));
    i_sound : sound (made (D s));
    i_at : match h_at (H s) with Dead _ => False | Gone => exited (G s) = true | Writing ws => ws <> [] | _ => True end;
    i_send : match e_at (E s) with Sending ws => ws <> [] | _ => True end }.

  (** What is known of any state, whatever happened. *)
  Record safe (s : state) : Prop := {
    s_sent : exists r, requests weapons previews = sent (H s) ++ r;
    s_sound : sound (made (D s));
    s_done : In Done (sent (H s)) -> handled W (D s) /\ can W /\ previewed (D s);
    s_gone : h_at (H s) = Gone -> In Done (sent (H s));
    s_dead : forall r, h_at (H s) = Dead r -> r = Torn }.

  Lemma done_not_opening : ~ In Done opening.
  Proof. clear. unfold opening. destruct previews; [tauto|]. rewrite in_app_iff, in_map_iff. intros [(? & [=] & _)|[[=]|[]]]. Qed.
  Lemma done_not_weapons l : ~ In Done (map Weapon l).
  Proof. rewrite in_map_iff. intros (? & [=] & _). Qed.

  Lemma phase_safe x g p sn d T U : phase x g p sn d T U ->
    (exists r, requests weapons previews = sn ++ r) /\ (In Done sn -> handled W d /\ can W /\ previewed d) /\ (exited g = true -> In Done sn).
  Proof.
    pose proof done_not_opening as O. pose proof done_not_weapons as DW. intros Hp. rewrite requests_is.
    destruct x as [| |rest| | |a w|a w|a w|a w| |]; cbn [phase] in Hp;
      [ destruct Hp as (-> & -> & -> & _) | destruct Hp as (-> & -> & -> & _) | destruct Hp as (_ & -> & -> & _ & _ & _ & ps & _ & ->)
      | destruct Hp as (_ & -> & -> & -> & _) | destruct Hp as (_ & -> & -> & -> & _)
      | destruct Hp as (-> & (EW & -> & _) & _) | destruct Hp as (-> & (EW & -> & _) & _) | destruct Hp as (-> & (EW & -> & _) & _) | destruct Hp as (-> & (EW & -> & _) & _)
      | destruct Hp as (-> & _ & -> & Hh & Hc & Hp & _) | destruct Hp as ((ex & ->) & _ & -> & Hh & Hc & Hp & _) ]; cbn [exited];
      (split; [|split; [|try discriminate]]).
    all: try (now eexists); try (intros []; fail); try (intros K; destruct (O K); fail).
    all: try (exists (map Weapon p ++ [Done]); rewrite EW, map_app; cbn [map]; rewrite map_app; cbn [map]; rewrite <- !app_assoc; reflexivity).
    all: try (intros K; apply in_app_or in K as [K|K]; [destruct (O K)|destruct (DW _ K)]; fail).
    all: try (exists []; now rewrite app_nil_r).
    all: try (intros _; apply in_or_app; right; apply in_or_app; right; now left).
    all: auto.
  Qed.
  Lemma inv_safe s x u t : inv s x u t -> safe s.
  Proof.
    intros [_ _ Hp _ _ Hs Ha _]. destruct (phase_safe _ _ _ _ _ _ _ Hp) as (A & B & C). constructor; auto.
    - intros K. rewrite K in Ha. auto.
    - intros r K. rewrite K in Ha. contradiction.
  Qed.

  Definition b (m : to_hemtt) : nat := match m with Ready => 5 * length previews + 21 | Shot _ | Previews => 5 | _ => 0 end.
  Definition c (m : to_game) : nat := match m with Weapon _ => 27 | PreviewRun => 12 | _ => 1 end.
  Definition mu (s : state) (u : list to_hemtt) (t : list to_game) : nat :=
    left_over (e_writes (e_at (E s))) (h_len (h_at (H s))) u + 5 * length (queue (E s)) + list_sum (map b (u ++ queue (E s))) +
    left_over (h_writes (h_at (H s))) (e_len (e_at (E s))) t + list_sum (map c (calls (E s) ++ t)) +
    31 * length (pending (H s)) + (if told (G s) then 0 else 6 + b Ready) + 11 * exporting (G s) + 11 * length (shooting (G s)) +
    (if exited (G s) then 0 else 1) + (match h_at (H s) with Gone => 0 | _ => 1 end).

  (** What a step comes to. *)
  Definition dead (s : state) : Prop := h_at (H s) = Dead Torn /\ safe s.
  Definition goes (s : state) (u : list to_hemtt) (t : list to_game) (s' : state) : Prop :=
    dead s' \/ exists x' u' t', inv s' x' u' t' /\ (s' = s \/ torn s' \/ (mu s' u' t' < mu s u t)%nat).

  Lemma heard_app cur U l : Forall harmless l -> heard cur U -> heard cur (U ++ l).
  Proof.
    intros F [(-> & Fh)|(a & z & -> & Fa & Fz)]; [left; split; [reflexivity|now apply Forall_app]|].
    right. exists a, (z ++ l). rewrite <- app_assoc. split; [reflexivity|]. split; [exact Fa|now apply Forall_app].
  Qed.
  Lemma heard_talk cur m U : heard cur (m :: U) -> talk m = true -> cur = Some our_mission /\ Forall harmless U.
  Proof.
    intros [(-> & F)|([|y a] & z & E & Fa & Fz)] T; [split; [reflexivity|now inversion F]| |].
    - injection E as -> _. discriminate T.
    - injection E as -> _. inversion Fa as [|? ? [_ Q] _]; subst. congruence.
  Qed.

  Lemma place_all : forall l m, incl l P -> exists l', place previews l m = Some (rev l' ++ m) /\ map snd l' = l /\ Forall (fun x => In (snd x, fst x) previews) l'.
  Proof.
    induction l as [|y l IH]; intros m I; [exists []; repeat split; constructor|]. cbn [place].
    destruct (find_class_some previews y (I y (or_introl eq_refl))) as (t & F). rewrite F.
    destruct (IH ((t, y) :: m) (fun z Hz => I z (or_intror Hz))) as (l' & E & M & A). exists ((t, y) :: l'). split; [|split].
    - rewrite E. cbn [rev]. now rewrite <- app_assoc.
    - cbn [map snd]. now rewrite M.
    - constructor; [|exact A]. cbn [fst snd]. now apply find_class_in.
  Qed.
  Lemma sound_app l m : Forall (fun x => In (snd x, fst x) previews) l -> sound m -> sound (l ++ m).
  Proof. clear. intros F S. induction F as [|[t y] l A F IH]; [exact S|]. cbn [app sound]. split; [left; exact A|exact IH]. Qed.

  Lemma exists_now_spec d t : exists_now d t = true <-> there t = true \/ exists y, In (t, y) (made d).
  Proof.
    clear. unfold ShootModel.exists_now. rewrite orb_true_iff, existsb_exists. split.
    - intros [A|([t' y] & I & E)]; [now left|]. apply eqb_bytes_spec in E. cbn [fst] in E. subst. right. now exists y.
    - intros [A|(y & I)]; [now left|]. right. exists (t, y). split; [exact I|]. apply eqb_bytes_refl.
  Qed.

  (** After an answer: the next weapon, or the end. *)
  Lemma next_ok g p p' a sn d y : g = Game true P O [] false false -> next_message p = (y, p') ->
    W = a ++ p -> sn = opening ++ map Weapon a -> handled a d -> can a -> previewed d ->
    exists x', phase x' g p' (sn ++ [y]) d [y] [] /\ (4 * length [y] + list_sum (map c [y]) + 31 * length p' <= 5 + 31 * length p)%nat.
  Proof.
    intros -> E EW -> Hh Hc Hp. destruct p as [|w p]; injection E as <- <-.
    - exists PN. split; [|cbn; lia]. cbn [phase]. rewrite app_nil_r in EW. subst a. rewrite <- app_assoc. auto 10.
    - exists (PF a w). split; [|cbn; lia]. cbn [phase]. unfold asked. rewrite map_app. cbn [map]. rewrite <- app_assoc. auto 10.
  Qed.

  Lemma receive_ok m h d g U T x :
    phase x g (pending h) (sent h) d T (filter talk (m :: U)) -> heard (current h) (m :: U) -> sound (made d) ->
    exists x' out h' d', receive m h d = (h', d') /\
      h_at h' = match out with [] => Polling | _ => Writing (pieces write_g out) end /\
      phase x' g (pending h') (sent h') d' (T ++ out) (filter talk U) /\ heard (current h') U /\ sound (made d') /\
      (4 * length out + list_sum (map c out) + 31 * length (pending h') <= b m + 31 * length (pending h))%nat.
  Proof.
    intros Hp Hh Hs. destruct (talk m) eqn:TK.
    - destruct (heard_talk _ _ _ Hh TK) as (HC & HU). cbn [filter] in Hp. rewrite TK in Hp.
      assert (R : receive m h d = match incoming m (pending h) d with
        | inl (out, p, d') => (Hemtt (match frames write_g out with [] => Polling | ws => Writing ws end) (current h) p (sent h ++ out), d')
        | inr r => (Hemtt (Dead r) (current h) (pending h) (sent h), d) end).
      { unfold ShootModel.receive. rewrite HC. rewrite eqb_bytes_refl. destruct m; try discriminate TK; reflexivity. }
      rewrite R. clear R.
      assert (HU' : heard (current h) U) by (left; split; assumption).
      assert (FIN : forall x' out p' d', incoming m (pending h) d = inl (out, p', d') -> out <> [] ->
        phase x' g p' (sent h ++ out) d' (T ++ out) (filter talk U) -> sound (made d') ->
        (4 * length out + list_sum (map c out) + 31 * length p' <= b m + 31 * length (pending h))%nat ->
        exists x' out h' d', match incoming m (pending h) d with
          | inl (out, p, d') => (Hemtt (match frames write_g out with [] => Polling | ws => Writing ws end) (current h) p (sent h ++ out), d')
          | inr r => (Hemtt (Dead r) (current h) (pending h) (sent h), d) end = (h', d') /\
          h_at h' = match out with [] => Polling | _ => Writing (pieces write_g out) end /\
          phase x' g (pending h') (sent h') d' (T ++ out) (filter talk U) /\ heard (current h') U /\ sound (made d') /\
          (4 * length out + list_sum (map c out) + 31 * length (pending h') <= b m + 31 * length (pending h))%nat).
      { intros x' out p' d' -> NE Ph So Co. exists x', out, (Hemtt (Writing (pieces write_g out)) (current h) p' (sent h ++ out)), d'.
        destruct out as [|o out]; [congruence|]. cbn [h_at current pending sent]. split; [reflexivity|]. auto. }
      destruct x as [| |rest| | |a w|a w|a w|a w| |]; cbn [phase] in Hp.
      1,3,4,6,7,9,10,11: exfalso; repeat match goal with X : _ /\ _ |- _ => destruct X | X : ex _ |- _ => destruct X end; discriminate.
      + (* Ready *) destruct Hp as (-> & Ep & Es & Em & -> & EU). injection EU as -> EU.
        destruct previews as [|pv pvs] eqn:EP.
        * destruct (next_message (pending h)) as [y p'] eqn:EN.
          destruct (next_ok (Game true [] 0 [] false false) (pending h) p' [] (sent h) d y) as (x' & Ph & Co); auto.
          { unfold P. now rewrite EP. } { now rewrite Es; unfold opening; rewrite EP. } { intros ? ? []. } { constructor. } { unfold previewed. rewrite EP. intros ? ? []. }
          apply (FIN x' [y] p' d); auto; [unfold ShootModel.incoming; now rewrite EN|discriminate|rewrite EU; exact Ph|].
          cbn [b]. rewrite EP. cbn [length]. lia.
        * apply (FIN (PC P) (map (fun x => Preview (fst x)) (pv :: pvs) ++ [PreviewRun]) (pending h) d); auto.
          -- intros K. apply app_eq_nil in K as [_ K]. discriminate K.
          -- cbn [phase app]. rewrite EU, Es. cbn [app].
             assert (Q : map (fun x => Preview (fst x)) (pv :: pvs) = map Preview P) by (unfold P; rewrite EP, map_map; reflexivity). rewrite Q.
             split; [rewrite EP; discriminate|]. split; [exact Ep|]. split; [unfold opening; now rewrite EP|]. do 3 (split; [auto|]). exists []. split; reflexivity.
          -- assert (L : list_sum (map c (map (fun x => Preview (fst x)) (pv :: pvs))) = length (pv :: pvs)) by (clear; induction (pv :: pvs) as [|q l IH]; [reflexivity|]; cbn [map list_sum fold_right length c]; unfold list_sum in IH; lia).
             rewrite app_length, map_length, map_app, list_sum_app, L. cbn [b]. rewrite EP. cbn [map list_sum fold_right c length]. lia.
      + (* Previews *) destruct Hp as (NE & -> & Ep & Es & Em & Est & -> & EU). injection EU as -> EU.
        destruct (place_all (stills d) (made d)) as (l' & PL & MS & AL); [rewrite Est; apply incl_refl|].
        destruct (next_message (pending h)) as [y p'] eqn:EN.
        set (d' := Disk (shots d) (stills d) (rev l' ++ made d)).
        assert (PV : previewed d').
        { intros q t I. unfold d'. cbn [made]. apply in_or_app. left. apply -> in_rev. pose proof (in_map fst _ _ I) as J. cbn [fst] in J. fold P in J. rewrite <- Est, <- MS in J.
          apply in_map_iff in J as ([t' q'] & E & J). cbn [snd] in E. subst q'. rewrite Forall_forall in AL. pose proof (AL _ J) as K. cbn [fst snd] in K.
          pose proof (find_class_nodup _ _ _ ND K) as F1. pose proof (find_class_nodup _ _ _ ND I) as F2. replace t with t' by congruence. exact J. }
        destruct (next_ok (Game true P 0 [] false false) (pending h) p' [] (sent h) d' y) as (x' & Ph & Co); auto.
        { cbn [map]. now rewrite app_nil_r. } { intros ? ? []. } { constructor. }
        apply (FIN x' [y] p' d'); auto; [unfold ShootModel.incoming; rewrite PL, EN; reflexivity|discriminate|rewrite EU; exact Ph|].
        unfold d'. cbn [made]. apply sound_app; [apply Forall_rev; exact AL|exact Hs].
      + (* Shot *) destruct Hp as (-> & (EW & Es & Hd & Hc & Hv) & Un & Sh & -> & EU). injection EU as -> EU.
        assert (IW : In w (map fst weapons)) by (apply in_rev; fold W; rewrite EW; apply in_or_app; right; now left).
        destruct (find_class_some _ _ IW) as (t & F). destruct (next_message (pending h)) as [y p'] eqn:EN.
        set (d' := if exists_now d t then d else Disk (shots d) (stills d) ((t, w) :: made d)).
        assert (IN : incoming (Shot w) (pending h) d = inl ([y], p', d')).
        { unfold ShootModel.incoming. rewrite F. unfold d'. destruct (exists_now d t); [now rewrite EN|].
          assert (X : existsb (eqb_bytes w) (shots d) = true) by (apply existsb_exists; exists w; split; [exact Sh|apply eqb_bytes_refl]). now rewrite X, EN. }
        assert (IC : incl (made d) (made d')) by (unfold d'; destruct (exists_now d t); [apply incl_refl|apply incl_tl, incl_refl]).
        assert (ME : forall t', exists_now d t' = true -> exists_now d' t' = true).
        { intros t' K. apply exists_now_spec. apply exists_now_spec in K as [K|(y' & K)]; [now left|]. right. exists y'. now apply IC. }
        destruct (next_ok (Game true P 0 [] false false) (pending h) p' (a ++ [w]) (sent h) d' y) as (x' & Ph & Co); auto.
        { now rewrite <- app_assoc. }
        { intros w' t' I J F'. apply in_app_or in I as [I|[<-|[]]]; [apply ME; eapply Hd; eassumption|]. replace t' with t by congruence.
          unfold d'. destruct (exists_now d t) eqn:Ex; [exact Ex|]. apply exists_now_spec. right. exists w. now left. }
        { apply Forall_app. split; [exact Hc|]. constructor; [exact Un|constructor]. }
        { intros q t' I. apply IC. now apply Hv. }
        apply (FIN x' [y] p' d'); auto; [discriminate|rewrite EU; exact Ph|].
        unfold d'. destruct (exists_now d t) eqn:Ex; [exact Hs|]. cbn [made sound]. split; [|exact Hs]. right. split; [now apply find_class_in|].
        assert (NX : ~ exists_now d t = true) by congruence. rewrite exists_now_spec in NX. split; [destruct (there t); [tauto|reflexivity]|].
        intros K. apply in_map_iff in K as ([t' y'] & E & K). cbn [fst] in E. subst t'. apply NX. right. now exists y'.
    - cbn [filter] in Hp. rewrite TK in Hp. rewrite <- (app_nil_r T) in Hp.
      destruct m as [p|l| | |]; try discriminate TK; cbn [ShootModel.receive].
      + destruct Hh as [(HC & F)|([|y a] & z & E & Fa & Fz)].
        * inversion F as [|? ? Q F']; subst. cbn [harmless] in Q. rewrite Q. eexists x, [], _, _. split; [reflexivity|]. cbn [h_at pending sent current]. split; [reflexivity|]. split; [exact Hp|].
          split; [left; split; assumption|]. split; [exact Hs|]. cbn [length map list_sum fold_right]. lia.
        * injection E as -> <-. rewrite Ours. eexists x, [], _, _. split; [reflexivity|]. cbn [h_at pending sent current]. split; [reflexivity|]. split; [exact Hp|].
          split; [left; split; [vm_compute; reflexivity|assumption]|]. split; [exact Hs|]. cbn [length map list_sum fold_right]. lia.
        * injection E as <- ->. inversion Fa as [|? ? [Q _] Fa']; subst. cbn [harmless] in Q. rewrite Q. eexists x, [], _, _. split; [reflexivity|]. cbn [h_at pending sent current]. split; [reflexivity|]. split; [exact Hp|].
          split; [right; exists a, z; auto|]. split; [exact Hs|]. cbn [length map list_sum fold_right]. lia.
      + assert (HU : heard (current h) U).
        { destruct Hh as [(HC & F)|([|y a] & z & E & Fa & Fz)]; [left; split; [exact HC|now inversion F]|discriminate E|]. injection E as _ ->. right. exists a, z. inversion Fa. auto. }
        eexists x, [], _, _. split; [reflexivity|]. cbn [h_at pending sent current]. split; [reflexivity|]. split; [exact Hp|]. split; [exact HU|]. split; [exact Hs|]. cbn [length map list_sum fold_right]. lia.
  Qed.

  Lemma no_exit x g p sn d T U : phase x g p sn d T U -> ~ In Exit T.
  Proof.
    clear. intros Hp. assert (E : T = [] \/ (exists w, T = [Weapon w]) \/ T = [Done] \/ exists l, T = map Preview l ++ [PreviewRun]).
    { destruct x as [| |rest| | |a w|a w|a w|a w| |]; cbn [phase] in Hp;
        repeat match goal with X : _ /\ _ |- _ => destruct X | X : ex _ |- _ => destruct X end; eauto 10. }
    destruct E as [->|[(w & ->)|[->|(l & ->)]]]; [tauto|intros [[=]|[]]|intros [[=]|[]]|]. rewrite in_app_iff, in_map_iff. intros [(? & [=] & _)|[[=]|[]]].
  Qed.

  Lemma asked_in x g p sn d T U m : phase x g p sn d T U -> In m T -> In m (requests weapons previews).
  Proof.
    intros Hp I. rewrite requests_is. destruct x as [| |rest| | |a w|a w|a w|a w| |]; cbn [phase] in Hp.
    3:{ destruct Hp as (NE & _ & _ & _ & -> & _ & ps & EP & _). apply in_or_app. left. unfold opening. destruct previews as [|pv pvs] eqn:EV; [congruence|].
        apply in_app_or in I as [I|I]; apply in_or_app; [left|right; exact I]. apply in_map_iff in I as (q & <- & I). apply in_map. rewrite EP. apply in_or_app. now right. }
    5:{ destruct Hp as (_ & (EW & _) & -> & _). destruct I as [<-|[]]. apply in_or_app. right. apply in_or_app. left. apply in_map. rewrite EW. apply in_or_app. right. now left. }
    8:{ destruct Hp as (_ & _ & _ & _ & _ & _ & -> & _). destruct I as [<-|[]]. apply in_or_app. right. apply in_or_app. right. now left. }
    all: exfalso; repeat match goal with X : _ /\ _ |- _ => destruct X | X : ex _ |- _ => destruct X end; subst; contradiction.
  Qed.

  Ltac view := unfold mu, left_over, say; cbn [H E G D up down h_at current pending sent e_at queue calls told poses exporting shooting ended exited h_writes h_len e_writes e_len length].
  Ltac measure := unfold mu, left_over, say; cbn [H E G D up down h_at current pending sent e_at queue calls told poses exporting shooting ended exited h_writes h_len e_writes e_len length];
    rewrite ?app_length, ?map_app, ?list_sum_app, ?app_length; cbn [length map b c]; unfold list_sum in *; cbn [fold_right]; try lia.

  Lemma step_ready s x u t : inv s x u t -> goes s u t (game_ready s).
  Proof.
    intros I. unfold game_ready. destruct (told (G s)) eqn:T; [right; exists x, u, t; auto|].
    destruct I as [Iu Id Ip Io Ih Is Ia Ie]. right.
    destruct x as [| |rest| | |a w|a w|a w|a w| |]; cbn [phase] in Ip.
    2-11: exfalso; repeat match goal with X : _ /\ _ |- _ => destruct X | X : ex _ |- _ => destruct X end; match goal with X : G _ = _, Y : told _ = _ |- _ => rewrite X in Y end; discriminate.
    destruct Ip as (Eg & Ep & Es & Em & ET & EU). exists PB, u, t. split.
    - constructor; cbn [H E G D up down h_at current pending sent say e_at queue calls]; auto.
      + cbn [phase]. rewrite Eg. cbn [poses exporting shooting ended exited]. rewrite app_assoc, filter_app, EU. auto 10.
      + rewrite app_assoc. apply Forall_app. auto.
      + rewrite app_assoc. apply heard_app; [repeat constructor|exact Ih].
    - right. right. view. rewrite Eg. measure.
  Qed.

  Lemma step_call s x u t : inv s x u t -> goes s u t (game_call uniform s).
  Proof.
    intros I. unfold game_call. destruct (calls (E s)) as [|m cs] eqn:EC; [right; exists x, u, t; auto|].
    destruct I as [Iu Id Ip Io Ih Is Ia Ie]. right. rewrite EC in Ip. cbn [app] in Ip.
    destruct x as [| |rest| | |a w|a w|a w|a w| |]; cbn [phase] in Ip.
    1,2,4,5,7,8,9,11: exfalso; repeat match goal with X : _ /\ _ |- _ => destruct X | X : ex _ |- _ => destruct X end; discriminate.
    - destruct Ip as (NE & Ep & Es & Em & ET & EU & ps & EP & Eg). destruct rest as [|r rest].
      + injection ET as -> ET. apply app_eq_nil in ET as [-> ->]. rewrite app_nil_r in EP. exists PD, u, []. split.
        * constructor; cbn [H E G D up down h_at current pending sent e_at queue calls]; auto.
          -- cbn [phase]. rewrite Eg. cbn [poses exporting shooting ended exited told]. rewrite EP. auto 10.
        * right. right. view. rewrite EC, Eg. measure.
      + cbn [map app] in ET. injection ET as -> ET. exists (PC rest), u, t. split.
        * constructor; cbn [H E G D up down h_at current pending sent e_at queue calls]; auto.
          -- cbn [phase]. do 4 (split; [assumption|]). split; [exact ET|]. split; [exact EU|]. exists (ps ++ [r]). rewrite Eg. cbn [poses exporting shooting ended exited told]. rewrite <- app_assoc. auto.
        * right. right. view. rewrite EC, Eg. measure.
    - destruct Ip as (Eg & As & ET & EU). injection ET as -> ET. apply app_eq_nil in ET as [-> ->].
      assert (IW : In w W) by (destruct As as (EW & _); rewrite EW; apply in_or_app; right; now left).
      assert (FL : filter talk (logs w (uniform w)) = []) by (destruct (uniform w); reflexivity).
      assert (HL : Forall harmless (logs w (uniform w))) by (destruct (uniform w); repeat constructor).
      exists (if uniform w then PG a w else PX a w), u, []. split.
      + constructor; cbn [H E G D up down h_at current pending sent say e_at queue calls]; auto.
        * rewrite Eg. cbn [poses exporting shooting ended exited told app]. rewrite app_assoc, filter_app, EU, FL. destruct (uniform w) eqn:Un; cbn [phase app]; auto 10.
        * rewrite app_assoc. apply Forall_app. split; [exact Io|]. apply (SayW w IW).
        * rewrite app_assoc. apply heard_app; [exact HL|exact Ih].
      + right. right. view. rewrite EC, Eg. unfold logs. destruct (uniform w); measure.
    - destruct Ip as (Eg & Ep & Es & Hh & Hc & Hv & ET & EU). injection ET as -> ET. apply app_eq_nil in ET as [-> ->]. exists PZ, u, []. split.
      + constructor; cbn [H E G D up down h_at current pending sent e_at queue calls]; auto.
        * cbn [phase]. rewrite Eg. cbn [poses exporting shooting ended exited told]. split; [now exists false|]. auto 10.
      + right. right. view. rewrite EC, Eg. measure.
  Qed.

  Lemma step_export s x u t : inv s x u t -> goes s u t (game_export s).
  Proof.
    intros I. unfold game_export. destruct (exporting (G s)) as [|n] eqn:EX; [right; exists x, u, t; auto|].
    destruct I as [Iu Id Ip Io Ih Is Ia Ie]. right.
    destruct x as [| |rest| | |a w|a w|a w|a w| |]; cbn [phase] in Ip.
    1,2,3,5-11: exfalso; repeat match goal with X : _ /\ _ |- _ => destruct X | X : ex _ |- _ => destruct X end; match goal with X : G _ = Game _ _ _ _ _ _, Y : _ (G _) = _ |- _ => rewrite X in Y end; discriminate.
    destruct Ip as (NE & Eg & Ep & Es & Em & ET & EU). rewrite Eg in EX. injection EX as <-. exists PE, u, t. split.
    - constructor; cbn [H E G D up down h_at current pending sent say e_at queue calls made]; auto.
      + cbn [phase made stills]. rewrite Eg. cbn [poses exporting shooting ended exited told]. rewrite app_assoc, filter_app, EU. auto 10.
      + rewrite app_assoc. apply Forall_app. auto.
      + rewrite app_assoc. apply heard_app; [repeat constructor|exact Ih].
    - right. right. view. rewrite Eg. measure.
  Qed.

  Lemma step_shoot s x u t : inv s x u t -> goes s u t (game_shoot s).
  Proof.
    intros I. unfold game_shoot. destruct (shooting (G s)) as [|w0 l] eqn:EX; [right; exists x, u, t; auto|].
    destruct I as [Iu Id Ip Io Ih Is Ia Ie]. right.
    destruct x as [| |rest| | |a w|a w|a w|a w| |]; cbn [phase] in Ip.
    1-6,8-11: exfalso; repeat match goal with X : _ /\ _ |- _ => destruct X | X : ex _ |- _ => destruct X end; match goal with X : G _ = Game _ _ _ _ _ _, Y : _ (G _) = _ |- _ => rewrite X in Y end; discriminate.
    destruct Ip as (Eg & As & Un & ET & EU). rewrite Eg in EX. injection EX as <- <-. exists (PR a w), u, t. split.
    - constructor; cbn [H E G D up down h_at current pending sent say e_at queue calls made]; auto.
      + cbn [phase made shots]. rewrite Eg. cbn [poses exporting shooting ended exited told]. rewrite app_assoc, filter_app, EU. split; [reflexivity|]. split; [exact As|]. split; [exact Un|]. split; [now left|]. auto.
      + assert (IW : In w W) by (destruct As as (EW & _); rewrite EW; apply in_or_app; right; now left). rewrite app_assoc. apply Forall_app. split; [exact Io|]. constructor; [apply (SayW w IW)|constructor].
      + rewrite app_assoc. apply heard_app; [repeat constructor|exact Ih].
    - right. right. view. rewrite Eg. measure.
  Qed.

  Lemma step_quit s x u t : inv s x u t -> exited (G s) = false -> goes s u t (game_quit s).
  Proof.
    intros I NX. unfold game_quit. destruct (ended (G s)) eqn:EX; [|right; exists x, u, t; auto].
    destruct I as [Iu Id Ip Io Ih Is Ia Ie]. right.
    destruct x as [| |rest| | |a w|a w|a w|a w| |]; cbn [phase] in Ip.
    1-10: exfalso; repeat match goal with X : _ /\ _ |- _ => destruct X | X : ex _ |- _ => destruct X end; match goal with X : G _ = Game _ _ _ _ _ _, Y : _ (G _) = _ |- _ => rewrite X in Y end; discriminate.
    destruct Ip as ((ex & Eg) & R). exists PZ, u, t. split.
    - constructor; cbn [H E G D up down h_at current pending sent say e_at queue calls made]; auto.
      + cbn [phase]. rewrite Eg. cbn [poses exporting shooting ended exited told]. split; [now exists true|exact R].
      + cbn [exited]. destruct (h_at (H s)); auto.
    - right. right. rewrite Eg in NX. cbn [exited] in NX. subst ex. view. rewrite Eg. measure.
  Qed.

  Lemma step_send s x u t : inv s x u t -> goes s u t (ext_send write_h s).
  Proof.
    intros I. unfold ext_send. destruct (e_at (E s)) as [|n|ws|] eqn:EE; try (right; exists x, u, t; auto; fail).
    - destruct (queue (E s)) as [|m q] eqn:EQ; [right; exists x, u, t; auto|]. destruct I as [Iu Id Ip Io Ih Is Ia Ie]. rewrite EE in *. rewrite EQ in *. right.
      exists x, (u ++ [m]), t. assert (AE : (u ++ [m]) ++ q = u ++ m :: q) by now rewrite <- app_assoc. split.
      + constructor; cbn [H E G D up down h_at current pending sent e_at queue calls e_writes e_len]; rewrite ?AE; auto.
        * apply (wire_push _ _ _ _ _ [m]) in Iu. exact Iu.
        * destruct Id as [[K _]|[_ Id]]; [discriminate|]. right. split; [discriminate|exact Id].
        * discriminate.
      + right. right. pose proof (wire_room _ _ _ _ _ Iu) as Room. view. rewrite EE, EQ. unfold frame. measure.
    - destruct I as [Iu Id Ip Io Ih Is Ia Ie]. rewrite EE in *. destruct ws as [|w1 ws]; [congruence|]. right. cbn [e_writes] in Iu. apply wire_write in Iu.
      destruct Id as [[K _]|[_ Id]]; [discriminate|]. exists x, u, t. destruct ws as [|w2 ws].
      + split.
        * constructor; cbn [H E G D up down h_at current pending sent e_at queue calls e_writes e_len]; auto. right. split; [discriminate|exact Id].
        * right. right. pose proof (wire_room _ _ _ _ _ Iu) as Room. view. rewrite EE. measure.
      + split.
        * constructor; cbn [H E G D up down h_at current pending sent e_at queue calls e_writes e_len]; auto; [right; split; [discriminate|exact Id]|discriminate].
        * right. right. pose proof (wire_room _ _ _ _ _ Iu) as Room. view. rewrite EE. measure.
  Qed.

  Lemma step_read s x u t : inv s x u t -> goes s u t (ext_read read_g s).
  Proof.
    intros I. unfold ext_read. destruct (e_at (E s)) as [|n|ws|] eqn:EE; try (right; exists x, u, t; auto; fail).
    - pose proof I as [Iu Id Ip Io Ih Is Ia Ie]. rewrite EE in *. destruct Id as [[K _]|[_ Id]]; [discriminate|]. cbn [e_len] in Id.
      destruct (wire_look _ _ _ _ Id) as [(Ed & _)|(m & l' & c' & Et & TE & Wi)].
      + rewrite Ed. cbn [take_exact]. right. exists x, u, t. rewrite <- Ed. clear - I. destruct s as [h0 e0 g0 d0 u0 n0]. cbn [H E G D up down]. auto.
      + assert (Sm : blen (write_g m) < 2 ^ 32 - 1) by (apply GS, (asked_in _ _ _ _ _ _ _ _ Ip); rewrite Et; apply in_or_app; right; now left).
        rewrite TE, (head_not_all _ _ Sm), (head_val _ _ Sm). right. exists x, u, t. split.
        * constructor; cbn [H E G D up down h_at current pending sent e_at queue calls e_writes e_len]; auto. right. split; [discriminate|exact Wi].
        * right. right. view. rewrite EE. rewrite Et. measure.
    - pose proof I as [Iu Id Ip Io Ih Is Ia Ie]. rewrite EE in *. destruct Id as [[K _]|[_ Id]]; [discriminate|]. cbn [e_len] in Id.
      destruct (wire_read _ GF _ _ _ _ Id) as (m & l' & Et & En & [(c' & TE & Wi)|(TE & _ & l2 & Ew)]).
      + rewrite TE, GR. assert (NX : m <> Exit).
        { intros ->. apply (no_exit _ _ _ _ _ _ _ Ip). rewrite Et. apply in_or_app. right. now left. }
        set (s' := State (H s) (Extension Waiting (queue (E s)) (calls (E s) ++ [m])) (G s) (D s) (up s) c').
        assert (Q : goes s u t s').
        { right. exists x, u, l'. assert (AE : (calls (E s) ++ [m]) ++ l' = calls (E s) ++ t) by (rewrite Et, <- app_assoc; reflexivity). split.
          - unfold s'. constructor; cbn [H E G D up down h_at current pending sent e_at queue calls e_writes e_len]; rewrite ?AE; auto. right. split; [discriminate|exact Wi].
          - right. right. unfold s'. view. rewrite EE, Et. measure. }
        destruct m; [congruence|exact Q|exact Q|exact Q|exact Q].
      + rewrite TE. right. exists x, u, t. split; [|right; left; right; reflexivity].
        constructor; cbn [H E G D up down h_at current pending sent e_at queue calls e_writes e_len]; auto. left. split; [reflexivity|]. rewrite Et. discriminate.
  Qed.

  Lemma step_hemtt s x u t : inv s x u t -> goes s u t (hemtt_turn write_g read_h weapons previews there s).
  Proof.
    intros I. unfold hemtt_turn. destruct (h_at (H s)) as [|n|ws| |r] eqn:EH; try (right; exists x, u, t; auto; fail).
    - pose proof I as [Iu Id Ip Io Ih Is Ia Ie]. rewrite EH in *. destruct (exited (G s)) eqn:EX.
      + right. exists x, u, t. split.
        * constructor; cbn [H E G D up down at_ h_at current pending sent e_at queue calls h_writes h_len]; auto.
        * right. right. unfold at_. view. rewrite EH, EX. measure.
      + cbn [h_len] in Iu. destruct (wire_look _ _ _ _ Iu) as [(Ed & _)|(m & l' & c' & Et & TE & Wi)].
        * rewrite Ed. cbn [take_exact]. right. exists x, u, t. rewrite <- Ed. clear - I. destruct s as [h0 e0 g0 d0 u0 n0]. cbn [H E G D up down]. auto.
        * assert (Sm : blen (write_h m) < 2 ^ 32 - 1) by (apply HS; rewrite Et in Io; now inversion Io).
          rewrite TE, (head_val _ _ Sm). right. exists x, u, t. split.
          -- constructor; cbn [H E G D up down at_ h_at current pending sent e_at queue calls h_writes h_len]; auto.
          -- right. right. unfold at_. view. rewrite EH. rewrite Et. measure.
    - pose proof I as [Iu Id Ip Io Ih Is Ia Ie]. rewrite EH in *. cbn [h_len] in Iu.
      destruct (wire_read _ HF _ _ _ _ Iu) as (m & l' & Et & En & [(c' & TE & Wi)|(TE & _ & l2 & Ew)]).
      + rewrite TE, HR. subst u. cbn [app] in Ip, Ih. destruct (receive_ok m (H s) (D s) (G s) (l' ++ queue (E s)) _ x Ip Ih Is) as (x' & out & h' & d' & R & Ea & Ph & He & So & Co).
        rewrite R. right. exists x', l', (t ++ out). rewrite <- app_assoc in Ph.
        assert (HL : h_len (h_at h') = None) by (rewrite Ea; now destruct out). assert (HW : h_writes (h_at h') = pieces write_g out) by (rewrite Ea; now destruct out).
        split.
        * constructor; cbn [H E G D up down h_at current pending sent e_at queue calls]; auto.
          -- now rewrite HL.
          -- destruct Id as [(K & K')|(K & Id)]; [left; split; [exact K|]; intros Q; apply app_eq_nil in Q as [Q _]; auto|]. right. split; [exact K|]. rewrite HW.
             exact (wire_push _ _ _ _ _ out Id).
          -- cbn [app] in Io. now inversion Io.
          -- rewrite Ea. destruct out as [|o out]; [exact Logic.I|discriminate].
        * right. right. unfold mu. cbn [H E G D up down]. rewrite HL, HW, EH, Ea. unfold left_over. rewrite (length_pieces write_g).
          assert (LS : list_sum (map b ((m :: l') ++ queue (E s))) = (b m + list_sum (map b (l' ++ queue (E s))))%nat) by reflexivity. rewrite LS.
          assert (Room : (match e_len (e_at (E s)) with None => 0 | Some _ => 1 end <= 2 * length t)%nat) by (destruct Id as [(K & _)|(_ & Id)]; [rewrite K; cbn [e_len]; lia|exact (wire_room _ _ _ _ _ Id)]).
          rewrite ?app_length, ?map_app, ?list_sum_app. cbn [h_writes h_len length].
          destruct (e_len (e_at (E s))), out; cbn [length] in *; lia.
      + rewrite TE. left. split; [reflexivity|]. destruct (inv_safe _ _ _ _ I) as [A B C _ _]. constructor; cbn [H E G D up down at_ h_at current pending sent]; auto; [discriminate|]. now intros r [= <-].
    - pose proof I as [Iu Id Ip Io Ih Is Ia Ie]. rewrite EH in *. destruct ws as [|w1 ws]; [congruence|]. destruct (exited (G s)) eqn:EX.
      + exfalso. assert (t = []).
        { destruct x as [| |rest| | |a w|a w|a w|a w| |]; cbn [phase] in Ip; repeat match goal with X : _ /\ _ |- _ => destruct X | X : ex _ |- _ => destruct X end;
            try (match goal with X : G s = _ |- _ => rewrite X in EX; discriminate EX end). match goal with X : calls (E s) ++ t = [] |- _ => apply app_eq_nil in X as [_ X]; exact X end. }
        subst t. destruct Id as [(_ & K)|(_ & Id)]; [congruence|]. cbn [h_writes] in Id. inversion Id as [l1 l2 E1 E2 E3 E4|l1 m l2 E1 E2 E3 E4| | |]; subst.
        * apply app_eq_nil in E4 as [-> ->]. discriminate E1.
        * destruct l1; discriminate E4.
      + assert (Q : forall a, (h_writes a = ws /\ h_len a = None /\ match a with Dead _ | Gone => False | Writing ws => ws <> [] | _ => True end) ->
          goes s u t (State (at_ a (H s)) (E s) (G s) (D s) (up s) (down s ++ w1))).
        { intros a (Aw & Al & An). right. exists x, u, t. split.
          - constructor; cbn [H E G D up down at_ h_at current pending sent e_at queue calls]; auto.
            + rewrite Al. exact Iu.
            + destruct Id as [K|(K & Id)]; [left; exact K|]. right. split; [exact K|]. rewrite Aw. cbn [h_writes] in Id. now apply wire_write in Id.
            + destruct a; auto; contradiction.
          - destruct Id as [(K & K')|(K & Id)]; [right; left; right; exact K|]. right. right. unfold at_, mu, left_over. cbn [H E G D up down h_at pending]. rewrite Aw, Al, EH. cbn [h_len h_writes length].
            assert (L : (match e_len (e_at (E s)) with None => 0 | Some _ => 1 end <= 2 * length t)%nat).
            { exact (wire_room _ _ _ _ _ Id). }
            destruct a; try contradiction; destruct (e_len (e_at (E s))); lia. }
        destruct ws as [|w2 ws]; [apply (Q Polling)|apply (Q (Writing (w2 :: ws)))]; auto. split; [reflexivity|]. split; [reflexivity|discriminate].
  Qed.

  Lemma step s x u t a : inv s x u t -> goes s u t (act a s).
  Proof.
    intros I. destruct a; cbn [ShootModel.act]; [now apply (step_hemtt s x)| | | | | | |];
      (destruct (exited (G s)) eqn:EX; [right; exists x, u, t; auto|]).
    - now apply (step_read s x).
    - now apply (step_send s x).
    - now apply (step_ready s x).
    - now apply (step_call s x).
    - now apply (step_export s x).
    - now apply (step_shoot s x).
    - now apply (step_quit s x).
  Qed.

  Definition good (s : state) : Prop := dead s \/ exists x u t, inv s x u t.
  Lemma dead_stays s a : dead s -> dead (act a s).
  Proof.
    intros (K & S).
    assert (Q : H (act a s) = H s /\ made (D (act a s)) = made (D s)).
    { destruct a; cbn [ShootModel.act]; [unfold hemtt_turn; rewrite K; auto| | | | | | |]; (destruct (exited (G s)); [auto|]).
      - unfold ext_read. destruct (e_at (E s)); auto; destruct (take_exact _ _) as [[l r]|]; auto; [destruct (forallb _ l); auto|]. destruct (read_g l) as [[| | | |]|]; auto.
      - unfold ext_send. destruct (e_at (E s)) as [| |[|? [|? ?]]|]; auto. destruct (queue (E s)); auto.
      - unfold game_ready. destruct (told (G s)); auto.
      - unfold game_call. destruct (calls (E s)) as [|[] ?]; auto.
      - unfold game_export. destruct (exporting (G s)); auto.
      - unfold game_shoot. destruct (shooting (G s)); auto.
      - unfold game_quit. destruct (ended (G s)); auto. }
    destruct Q as (QH & QM). unfold dead. rewrite QH. split; [exact K|]. destruct S as [A B C D' F]. constructor; rewrite ?QH, ?QM; auto.
    intros X. destruct (C X) as (Y & Z & V). split; [|split; [exact Z|]].
    - intros w t Iw It F'. apply exists_now_spec. rewrite QM. apply exists_now_spec. eauto.
    - intros q t J. rewrite QM. auto.
  Qed.
  Lemma good_step s a : good s -> good (act a s).
  Proof.
    intros [K|(x & u & t & I)]; [left; now apply dead_stays|]. destruct (step s x u t a I) as [K|(x' & u' & t' & I' & _)]; [now left|]. right. eauto.
  Qed.
  Lemma good_safe s : good s -> safe s.
  Proof. intros [(_ & S)|(x & u & t & I)]; [exact S|now apply (inv_safe s x u t)]. Qed.

  Notation run := (run write_g read_g write_h read_h weapons previews there uniform).
  Lemma run_good l : forall s, good s -> good (run l s).
  Proof. induction l as [|a l IH]; intros s G0; [exact G0|]. cbn [ShootModel.run fold_left]. apply IH. now apply good_step. Qed.

  (** The start: what the scripts said before the mission began is of no account. *)
  Lemma start_inv s0 menus : s0 = State (Hemtt Polling None W []) (Extension Waiting (map Mission menus ++ [Mission ours]) []) (Game false [] O [] false false) (Disk [] [] []) [] [] ->
    Forall (fun m => split_once_str (bs "\autotest\") m = None) menus -> Forall say_ok (map Mission menus ++ [Mission ours]) -> inv s0 PA [] [].
  Proof.
    intros -> F FO. constructor; cbn [H E G D up down h_at current pending sent e_at queue calls e_writes e_len h_writes h_len app made sound]; auto.
    - apply wire_nil.
    - right. split; [discriminate|apply wire_nil].
    - cbn [phase]. repeat (split; [reflexivity|]). rewrite filter_app. cbn [filter talk]. rewrite app_nil_r. clear. induction menus as [|m l IH]; [reflexivity|exact IH].
    - right. exists (map Mission menus), []. split; [reflexivity|]. split; [|constructor]. clear - F. induction F as [|m l A F IH]; cbn [map]; constructor; [split; [exact A|reflexivity]|exact IH].
  Qed.

  (** ** Progress *)
  Definition fin (s : state) : Prop := torn s \/ h_at (H s) = Gone.
  Lemma stopped_stays s a : e_at (E s) = Stopped -> e_at (E (act a s)) = Stopped.
  Proof.
    clear. intros K. destruct a; cbn [ShootModel.act].
    - unfold hemtt_turn. destruct (h_at (H s)) as [|n|[|? [|? ?]]| |]; auto; try (destruct (exited (G s)); auto; fail).
      + destruct (exited (G s)); auto. destruct (take_exact 4 (up s)) as [[? ?]|]; auto.
      + destruct (take_exact _ (up s)) as [[l ?]|]; auto. destruct (read_h l) as [m|]; auto. destruct (receive m (H s) (D s)); auto.
    - destruct (exited (G s)); [exact K|]. unfold ext_read. now rewrite K.
    - destruct (exited (G s)); [exact K|]. unfold ext_send. now rewrite K.
    - destruct (exited (G s)); [exact K|]. unfold game_ready. destruct (told (G s)); auto.
    - destruct (exited (G s)); [exact K|]. unfold game_call. destruct (calls (E s)) as [|[] ?]; auto.
    - destruct (exited (G s)); [exact K|]. unfold game_export. destruct (exporting (G s)); auto.
    - destruct (exited (G s)); [exact K|]. unfold game_shoot. destruct (shooting (G s)); auto.
    - destruct (exited (G s)); [exact K|]. unfold game_quit. destruct (ended (G s)); auto.
  Qed.
  Lemma still_stays s a : (h_at (H s) = Gone \/ exists r, h_at (H s) = Dead r) -> h_at (H (act a s)) = h_at (H s).
  Proof.
    clear. intros K. destruct a; cbn [ShootModel.act].
    - unfold hemtt_turn. destruct K as [K|(r & K)]; now rewrite K.
    - destruct (exited (G s)); auto. unfold ext_read. destruct (e_at (E s)); auto; destruct (take_exact _ _) as [[l r]|]; auto; [destruct (forallb _ l); auto|]. destruct (read_g l) as [[| | | |]|]; auto.
    - destruct (exited (G s)); auto. unfold ext_send. destruct (e_at (E s)) as [| |[|? [|? ?]]|]; auto. destruct (queue (E s)); auto.
    - destruct (exited (G s)); auto. unfold game_ready. destruct (told (G s)); auto.
    - destruct (exited (G s)); auto. unfold game_call. destruct (calls (E s)) as [|[] ?]; auto.
    - destruct (exited (G s)); auto. unfold game_export. destruct (exporting (G s)); auto.
    - destruct (exited (G s)); auto. unfold game_shoot. destruct (shooting (G s)); auto.
    - destruct (exited (G s)); auto. unfold game_quit. destruct (ended (G s)); auto.
  Qed.
  Lemma fin_stays l : forall s, fin s -> fin (run l s).
  Proof.
    induction l as [|a l IH]; intros s F; [exact F|]. cbn [ShootModel.run fold_left]. apply IH. destruct F as [[F|F]|F].
    - left. left. rewrite still_stays; eauto.
    - left. right. now apply stopped_stays.
    - right. rewrite still_stays; auto.
  Qed.

  Lemma progress s x u t : inv s x u t -> can W -> (forall a, act a s = s) -> fin s.
  Proof.
    intros I CW ST. pose proof I as [Iu Id Ip Io Ih Is Ia Ie].
    assert (EC : forall a (f : state -> Prop), f (act a s) -> f s) by (intros a f F; now rewrite (ST a) in F).
    destruct Id as [(K & _)|(NS & Id)]; [left; right; exact K|].
    pose proof (ST Hemtt_turn) as SH. cbn [ShootModel.act] in SH. unfold hemtt_turn in SH.
    destruct (h_at (H s)) as [|n|[|w1 ws]| |r] eqn:EH; [| | | |right; exact EH|contradiction].
    2:{ exfalso. destruct (wire_read _ HF _ _ _ _ Iu) as (m & l' & Et & En & [(c' & TE & Wi)|(TE & _)]); rewrite TE in SH.
        - rewrite HR in SH. subst u. cbn [app] in Ip, Ih. destruct (receive_ok m (H s) (D s) (G s) (l' ++ queue (E s)) _ x Ip Ih Is) as (x' & out & h' & d' & R & Ea & _). rewrite R in SH.
          apply (f_equal (fun q => h_at (H q))) in SH. cbn [H] in SH. rewrite Ea, EH in SH. destruct out; discriminate.
        - apply (f_equal (fun q => h_at (H q))) in SH. cbn [H at_ h_at] in SH. congruence. }
    2:{ congruence. }
    2:{ exfalso. destruct (exited (G s)) eqn:EX; [apply (f_equal (fun q => h_at (H q))) in SH; cbn [H at_ h_at] in SH; congruence|].
        destruct ws as [|w2 ws]; apply (f_equal (fun q => h_at (H q))) in SH; cbn [H at_ h_at] in SH; rewrite EH in SH; [discriminate|]. injection SH as _ SH. clear - SH. apply (f_equal (@length _)) in SH. cbn [length] in SH. lia. }
    destruct (exited (G s)) eqn:EX; [exfalso; apply (f_equal (fun q => h_at (H q))) in SH; cbn [H at_ h_at] in SH; congruence|].
    cbn [h_len] in Iu. destruct (wire_look _ _ _ _ Iu) as [(Ed & l2 & El & Ew)|(m & l' & c' & Et & TE & Wi)].
    2:{ exfalso. rewrite TE in SH. apply (f_equal (fun q => h_at (H q))) in SH. cbn [H at_ h_at] in SH. congruence. }
    subst l2. clear SH.
    assert (SE : e_at (E s) = Waiting).
    { destruct (e_at (E s)) as [|n|[|w1 ws]|] eqn:EE; [reflexivity| |congruence| |congruence]; exfalso.
      - pose proof (ST Ext_read) as SR. cbn [ShootModel.act] in SR. rewrite EX in SR. unfold ext_read in SR. rewrite EE in SR. cbn [e_len] in Id.
        destruct (wire_read _ GF _ _ _ _ Id) as (m & l' & Et & En & [(c' & TE & Wi)|(TE & _)]); rewrite TE in SR.
        + rewrite GR in SR. destruct m; try (apply (f_equal (fun q => e_at (E q))) in SR; cbn [E e_at] in SR; congruence). apply (no_exit _ _ _ _ _ _ _ Ip). rewrite Et. apply in_or_app. right. now left.
        + apply (f_equal (fun q => e_at (E q))) in SR. cbn [E e_at] in SR. congruence.
      - pose proof (ST Ext_send) as SR. cbn [ShootModel.act] in SR. rewrite EX in SR. unfold ext_send in SR. rewrite EE in SR.
        destruct ws as [|w2 ws]; apply (f_equal (fun q => e_at (E q))) in SR; cbn [E e_at] in SR; rewrite EE in SR; [discriminate|]. injection SR as _ SR. apply (f_equal (@length _)) in SR. cbn [length] in SR. lia. }
    rewrite SE in *. cbn [e_writes e_len] in *.
    assert (u = []) by (destruct u; [reflexivity|discriminate Ew]). subst u.
    assert (Q : queue (E s) = []).
    { destruct (queue (E s)) as [|m q] eqn:EQ; [reflexivity|exfalso]. pose proof (ST Ext_send) as SR. cbn [ShootModel.act] in SR. rewrite EX in SR. unfold ext_send in SR. rewrite SE, EQ in SR.
      apply (f_equal (fun q => e_at (E q))) in SR. cbn [E e_at] in SR. congruence. }
    assert (T0 : t = []).
    { destruct (wire_look _ _ _ _ Id) as [(Ed' & l2 & El & Ew')|(m & l' & c' & Et & TE & Wi)].
      - subst l2. destruct t; [reflexivity|discriminate Ew'].
      - exfalso. pose proof (ST Ext_read) as SR. cbn [ShootModel.act] in SR. rewrite EX in SR. unfold ext_read in SR. rewrite SE, TE in SR.
        assert (Sm : blen (write_g m) < 2 ^ 32 - 1) by (apply GS, (asked_in _ _ _ _ _ _ _ _ Ip); rewrite Et; apply in_or_app; right; now left). rewrite (head_not_all _ _ Sm) in SR.
        apply (f_equal (fun q => e_at (E q))) in SR. cbn [E e_at] in SR. congruence. }
    subst t.
    assert (C0 : calls (E s) = []).
    { destruct (calls (E s)) as [|m cs] eqn:EQ; [reflexivity|exfalso]. pose proof (ST Game_call) as SR. cbn [ShootModel.act] in SR. rewrite EX in SR. unfold game_call in SR. rewrite EQ in SR.
      apply (f_equal (fun q => length (calls (E q)))) in SR. rewrite EQ in SR. clear - SR.
      destruct m; unfold say in SR; cbn [E calls length] in SR; lia. }
    rewrite Q, C0 in Ip. cbn [app filter] in Ip. exfalso.
    destruct x as [| |rest| | |a w|a w|a w|a w| |]; cbn [phase] in Ip.
    2,5,6,8,10: repeat match goal with X : _ /\ _ |- _ => destruct X | X : ex _ |- _ => destruct X end; discriminate.
    - destruct Ip as (Eg & _). pose proof (ST Game_ready) as SR. cbn [ShootModel.act] in SR. rewrite EX in SR. unfold game_ready in SR. rewrite Eg in SR. cbn [told] in SR.
      apply (f_equal (fun q => told (G q))) in SR. cbn [G told] in SR. rewrite Eg in SR. discriminate.
    - destruct Ip as (_ & _ & _ & _ & ET & _). destruct rest; discriminate.
    - destruct Ip as (_ & Eg & _). pose proof (ST Game_export) as SR. cbn [ShootModel.act] in SR. rewrite EX in SR. unfold game_export in SR. rewrite Eg in SR. cbn [exporting] in SR.
      apply (f_equal (fun q => exporting (G q))) in SR. cbn [G exporting] in SR. rewrite Eg in SR. discriminate.
    - destruct Ip as (Eg & _). pose proof (ST Game_shoot) as SR. cbn [ShootModel.act] in SR. rewrite EX in SR. unfold game_shoot in SR. rewrite Eg in SR. cbn [shooting] in SR.
      apply (f_equal (fun q => shooting (G q))) in SR. cbn [G shooting] in SR. rewrite Eg in SR. discriminate.
    - destruct Ip as (_ & (EW & _) & Un & _). rewrite EW in CW. apply Forall_app in CW as [_ CW]. inversion CW. congruence.
    - destruct Ip as ((ex & Eg) & _). pose proof (ST Game_quit) as SR. cbn [ShootModel.act] in SR. rewrite EX in SR. unfold game_quit in SR. rewrite Eg in SR. cbn [ended] in SR.
      apply (f_equal (fun q => exited (G q))) in SR. cbn [G exited] in SR. congruence.
  Qed.

  Lemma dead_fin s : dead s -> fin s.
  Proof. intros (K & _). left. left. exact K. Qed.
  Lemma segment l : forall s x u t, inv s x u t ->
    (run l s = s /\ forall a, In a l -> act a s = s) \/ fin (run l s) \/ exists x' u' t', inv (run l s) x' u' t' /\ (mu (run l s) u' t' < mu s u t)%nat.
  Proof.
    induction l as [|a l IH]; intros s x u t I; [left; split; [reflexivity|intros ? []]|]. cbn [ShootModel.run fold_left].
    change (fold_left (fun s0 a0 => act a0 s0) l (act a s)) with (run l (act a s)).
    destruct (step s x u t a I) as [K|(x' & u' & t' & I' & [E'|[T|L]])].
    - right. left. apply fin_stays, dead_fin, K.
    - rewrite E'. destruct (IH s x u t I) as [(R & A)|[F|F]]; [|right; left; exact F|right; right; exact F]. left. split; [exact R|]. intros a' [<-|J]; auto.
    - right. left. apply fin_stays. now left.
    - destruct (IH _ _ _ _ I') as [(R & A)|[F|(x2 & u2 & t2 & I2 & L2)]].
      + right. right. rewrite R. eauto.
      + right. left. exact F.
      + right. right. exists x2, u2, t2. split; [exact I2|]. eapply Nat.lt_trans; eassumption.
  Qed.
  Lemma fair k : forall s x u t l, inv s x u t -> can W -> (mu s u t < k)%nat -> rounds k l -> fin (run l s).
  Proof.
    induction k as [|k IH]; intros s x u t l I CW L R; [lia|]. cbn [rounds] in R. destruct R as (p & q & -> & AL & R).
    assert (RA : run (p ++ q) s = run q (run p s)) by apply fold_left_app. rewrite RA.
    destruct (segment p s x u t I) as [(E1 & A)|[F|(x' & u' & t' & I' & L')]].
    - apply fin_stays. rewrite E1. apply (progress s x u t I CW). intros a. apply A, AL.
    - now apply fin_stays.
    - apply (IH _ x' u' t' q I' CW); [lia|exact R].
  Qed.

  (** ** No torn messages *)
  Definition whole (s : state) : Prop := (h_len (h_at (H s)) <> None -> up s <> []) /\ (e_len (e_at (E s)) <> None -> down s <> []).
  Ltac not_torn := intros [K|K]; cbn [H E at_ h_at e_at] in K; congruence.
  Lemma careful_step s x u t a : inv s x u t -> whole s -> e_at (E s) <> Stopped ->
    (a = Hemtt_turn -> h_at (H s) = Polling -> forall ws, e_at (E s) = Sending ws -> ~ in_between ws) ->
    (a = Ext_read -> e_at (E s) = Waiting -> forall ws, h_at (H s) = Writing ws -> ~ in_between ws) ->
    whole (act a s) /\ ~ torn (act a s).
  Proof.
    intros I (WU & WD) NS CH CE. pose proof I as [Iu Id Ip Io Ih Is Ia Ie]. destruct Id as [(K & _)|(_ & Id)]; [congruence|].
    assert (ND0 : h_at (H s) <> Dead Torn) by (intros K; rewrite K in Ia; exact Ia).
    assert (SAME : whole s /\ ~ torn s) by (split; [split; assumption|]; intros [K|K]; congruence).
    assert (MOVE : forall s', h_at (H s') = h_at (H s) -> e_at (E s') = e_at (E s) -> up s' = up s -> down s' = down s -> whole s' /\ ~ torn s').
    { intros s' E1 E2 E3 E4. unfold whole, torn. rewrite E1, E2, E3, E4. exact SAME. }
    destruct a; cbn [ShootModel.act].
    - clear CE. specialize (CH eq_refl). unfold hemtt_turn. destruct (h_at (H s)) as [|n|ws| |r] eqn:EH.
      + destruct (exited (G s)); [split; [split|]; cbn [H E up down at_ h_at h_len]; [congruence|exact WD|not_torn]|].
        cbn [h_len] in Iu. destruct (wire_look _ _ _ _ Iu) as [(Ed & _)|(m & l' & c' & Et & TE & Wi)].
        * rewrite Ed. cbn [take_exact]. apply MOVE; cbn [H E up down]; auto.
        * rewrite TE. split; [split|]; cbn [H E up down at_ h_at h_len]; [|exact WD|not_torn]. intros _.
          refine (wire_look_whole _ HF _ _ _ _ _ Iu _ TE). destruct (e_at (E s)) as [|n|ws|] eqn:EE; cbn [e_writes]; try reflexivity. specialize (CH eq_refl ws eq_refl). unfold in_between in CH. destruct (Nat.odd _); [congruence|reflexivity].
      + cbn [h_len] in Iu. destruct (wire_read _ HF _ _ _ _ Iu) as (m & l' & Et & En & [(c' & TE & Wi)|(TE & K & _)]); [|destruct WU; [discriminate|exact K]]. rewrite TE, HR.
        subst u. cbn [app] in Ip, Ih. destruct (receive_ok m (H s) (D s) (G s) (l' ++ queue (E s)) _ x Ip Ih Is) as (x' & out & h' & d' & R & Ea & _). rewrite R.
        split; [split|]; cbn [H E up down]; [rewrite Ea; destruct out; cbn [h_len]; congruence|exact WD|]. intros [K|K]; cbn [H E] in K; [rewrite Ea in K; destruct out; discriminate|congruence].
      + destruct (exited (G s)); [split; [split|]; cbn [H E up down at_ h_at h_len]; [congruence|exact WD|not_torn]|].
        destruct ws as [|w1 [|w2 ws]]; (split; [split|]; cbn [H E up down at_ h_at h_len]; [congruence| |not_torn]); auto.
        all: intros K Q; apply app_eq_nil in Q as [Q _]; now apply (WD K).
      + apply SAME.
      + destruct Ia.
    - destruct (exited (G s)); [exact SAME|]. clear CH. specialize (CE eq_refl). unfold ext_read. destruct (e_at (E s)) as [|n|ws|] eqn:EE; try exact SAME.
      + cbn [e_len] in Id. destruct (wire_look _ _ _ _ Id) as [(Ed & _)|(m & l' & c' & Et & TE & Wi)].
        * rewrite Ed. cbn [take_exact]. apply MOVE; cbn [H E up down]; auto.
        * assert (Sm : blen (write_g m) < 2 ^ 32 - 1) by (apply GS, (asked_in _ _ _ _ _ _ _ _ Ip); rewrite Et; apply in_or_app; right; now left).
          rewrite TE, (head_not_all _ _ Sm). split; [split|]; cbn [H E up down e_at e_len]; [exact WU| |not_torn]. intros _.
          refine (wire_look_whole _ GF _ _ _ _ _ Id _ TE). destruct (h_at (H s)) as [|n|ws| |r] eqn:EH; cbn [h_writes]; try reflexivity. specialize (CE eq_refl ws eq_refl). unfold in_between in CE. destruct (Nat.odd _); [congruence|reflexivity].
      + cbn [e_len] in Id. destruct (wire_read _ GF _ _ _ _ Id) as (m & l' & Et & En & [(c' & TE & Wi)|(TE & K & _)]); [|destruct WD; [discriminate|exact K]]. rewrite TE, GR.
        assert (NX : m <> Exit) by (intros ->; apply (no_exit _ _ _ _ _ _ _ Ip); rewrite Et; apply in_or_app; right; now left).
        destruct m; try congruence; (split; [split|]; cbn [H E up down e_at e_len]; [exact WU|congruence|not_torn]).
    - destruct (exited (G s)); [exact SAME|]. unfold ext_send. destruct (e_at (E s)) as [|n|ws|] eqn:EE; try exact SAME.
      + destruct (queue (E s)); [exact SAME|]. split; [split|]; cbn [H E up down e_at e_len]; [exact WU|congruence|not_torn].
      + destruct ws as [|w1 [|w2 ws]]; (split; [split|]; cbn [H E up down e_at e_len]; [|congruence|not_torn]); auto.
        all: intros K Q; apply app_eq_nil in Q as [Q _]; now apply (WU K).
    - destruct (exited (G s)); [exact SAME|]. unfold game_ready. destruct (told (G s)); [exact SAME|]. now apply MOVE.
    - destruct (exited (G s)); [exact SAME|]. unfold game_call. destruct (calls (E s)) as [|[] ?]; [exact SAME|..]; now apply MOVE.
    - destruct (exited (G s)); [exact SAME|]. unfold game_export. destruct (exporting (G s)); [exact SAME|now apply MOVE].
    - destruct (exited (G s)); [exact SAME|]. unfold game_shoot. destruct (shooting (G s)); [exact SAME|now apply MOVE].
    - destruct (exited (G s)); [exact SAME|]. unfold game_quit. destruct (ended (G s)); [now apply MOVE|exact SAME].
  Qed.
  Lemma careful_run l : forall s x u t, inv s x u t -> whole s -> e_at (E s) <> Stopped -> careful act l s -> ~ torn (run l s).
  Proof.
    induction l as [|a l IH]; intros s x u t I Wh NS C.
    - intros [K|K]; cbn [ShootModel.run fold_left] in K; [pose proof (i_at _ _ _ _ I) as Ia; rewrite K in Ia; exact Ia|congruence].
    - cbn [careful] in C. destruct C as (C1 & C2 & C3). destruct (careful_step s x u t a I Wh NS C1 C2) as (Wh' & NT).
      cbn [ShootModel.run fold_left]. destruct (step s x u t a I) as [(K & _)|(x' & u' & t' & I' & _)]; [destruct NT; now left|].
      apply (IH _ x' u' t' I' Wh'); [|exact C3]. intros K. apply NT. now right.
  Qed.
End Session.
