(** C95: a photoshoot takes every missing picture, whatever the timing, or is cut short by a torn message. *)
From Coq Require Import String.
From Verif Require Import Base.Tactics Base.Bytes Base.Sort Base.Ascii Base.Text.
From Verif Require Import Shoot.ShootModel Shoot.ShootSpec Shoot.WireProofs Shoot.ShootProofs.
Local Open Scope N_scope.
Local Open Scope list_scope.

(** A folder with no part named autotest. *)
Lemma mission_splits folder : (forall a b, folder ++ [92] <> a ++ bs "\autotest\" ++ b) ->
  split_once_str (bs "\autotest\") (folder ++ bs "\autotest\photoshoot.VR\") = Some (folder, our_mission ++ [92]).
Proof.
  intros Hf. induction folder as [|c f IH]; [vm_compute; reflexivity|].
  assert (NS : starts_with (bs "\autotest\") ((c :: f) ++ bs "\autotest\photoshoot.VR\") = false).
  { destruct (starts_with _ _) eqn:S; [exfalso|reflexivity]. clear IH. change (bs "\autotest\") with [92; 97; 117; 116; 111; 116; 101; 115; 116; 92] in *. remember (bs "\autotest\photoshoot.VR\") as z eqn:Ez. 
    assert (exists y, z = [92; 97; 117; 116; 111; 116; 101; 115; 116; 92] ++ y) as (y & ->) by (exists (our_mission ++ [92]); rewrite Ez; reflexivity). clear Ez.
    apply starts_with_spec in S as (r & S).
    destruct f as [|c1 [|c2 [|c3 [|c4 [|c5 [|c6 [|c7 [|c8 f]]]]]]]]; cbn [app] in S; try discriminate S.
    injection S as -> -> -> -> -> -> -> -> -> S. destruct f as [|c9 f]; cbn [app] in S.
    - apply (Hf [] []). reflexivity.
    - injection S as -> _. apply (Hf [] (f ++ [92])). reflexivity. }
  assert (IH' : split_once_str (bs "\autotest\") (f ++ bs "\autotest\photoshoot.VR\") = Some (f, our_mission ++ [92])).
  { apply IH. intros a b E. apply (Hf (c :: a) b). cbn [app]. now f_equal. }
  remember (bs "\autotest\") as p. remember (bs "\autotest\photoshoot.VR\") as z. cbn [app split_once_str] in *. rewrite NS, IH'. reflexivity.
Qed.

Section Session.
  Context (write_g : to_game -> bytes) (read_g : bytes -> option to_game) (write_h : to_hemtt -> bytes) (read_h : bytes -> option to_hemtt).
  Context (weapons previews : list (text * text)) (there : text -> bool) (uniform : text -> bool).
  (** The pictures to take are in hash maps, by class. *)
  Hypothesis Classes : NoDup (map fst weapons) /\ NoDup (map fst previews).
  (** No folder above the mission's is named autotest; other missions (the menu's) are in no such folder. *)
  Context (menus : list text) (folder : text).
  Hypothesis Folder : forall a b, folder ++ [92] <> a ++ bs "\autotest\" ++ b.
  Hypothesis Menus : forall m a b, In m menus -> m <> a ++ bs "\autotest\" ++ b.

  Notation missions := (menus ++ [folder ++ bs "\autotest\photoshoot.VR\"]).
  (** What JSON gives: messages are read as they were written, and those of this session take from one byte to just under 4 GiB. *)
  Hypothesis Game_json : forall m, read_g (write_g m) = Some m /\ write_g m <> [].
  Hypothesis Hemtt_json : forall m, read_h (write_h m) = Some m /\ write_h m <> [].
  Hypothesis Game_short : forall m, In m (requests weapons previews) -> blen (write_g m) < 2 ^ 32 - 1.
  Hypothesis Hemtt_short : forall m, could_say weapons missions m -> blen (write_h m) < 2 ^ 32 - 1.

  Notation act := (act write_g read_g write_h read_h weapons previews there uniform).
  Notation session l := (run write_g read_g write_h read_h weapons previews there uniform l (start weapons menus folder)).

  Lemma begin : inv write_g write_h weapons previews there uniform (folder ++ bs "\autotest\photoshoot.VR\") (could_say weapons missions) (start weapons menus folder) PA [] [].
  Proof using Folder Menus.
    apply (start_inv write_g write_h weapons previews there uniform _ (could_say weapons missions) (start weapons menus folder) menus).
    - unfold start, W. reflexivity.
    - apply Forall_forall. intros m I. destruct (split_once_str _ m) as [[a b]|] eqn:S; [|reflexivity]. exfalso.
      assert (Q : forall p s a b, split_once_str p s = Some (a, b) -> s = a ++ p ++ b).
      { clear. intros p. induction s as [|c s IH]; intros a b.
        - cbn [split_once_str]. destruct p; [intros [= <- <-]; reflexivity|discriminate].
        - cbn [split_once_str]. destruct (starts_with p (c :: s)) eqn:S.
          + intros [= <- <-]. apply starts_with_spec in S as (r & ->). cbn [app]. f_equal. now rewrite skipn_app, skipn_all, Nat.sub_diag.
          + destruct (split_once_str p s) as [[x y]|] eqn:E; [|discriminate]. intros [= <- <-]. cbn [app]. f_equal. now apply IH. }
      apply (Menus m a b I). now apply Q.
    - apply Forall_app. split.
      + apply Forall_forall. intros m I. apply in_map_iff in I as (p & <- & I). cbn [could_say]. apply in_or_app. now left.
      + constructor; [|constructor]. cbn [could_say]. apply in_or_app. right. now left.
  Qed.
  Lemma says w : In w (rev (map fst weapons)) -> could_say weapons missions (Shot w) /\ forall u, Forall (could_say weapons missions) (logs w u).
  Proof using.
    intros I. apply in_rev in I. split; [exact I|]. intros u. apply Forall_forall. intros m Im. assert (exists l, m = Log l) as (l & ->).
    { destruct u; cbn [logs In] in Im; destruct Im as [<-|[<-|[<-|[]]]]; eauto. }
    cbn [could_say]. eauto.
  Qed.
  Lemma reached l : good write_g write_h weapons previews there uniform (folder ++ bs "\autotest\photoshoot.VR\") (could_say weapons missions) (session l).
  Proof using Game_json Hemtt_json Game_short Hemtt_short Classes Folder Menus.
    apply (run_good write_g read_g write_h read_h weapons previews there uniform _ folder); try (intros; apply Game_json); try (intros; apply Hemtt_json); auto; try exact Logic.I; [apply says|apply Classes|now apply mission_splits|].
    right. exists PA, [], []. apply begin.
  Qed.
  Lemma always l : safe weapons previews there uniform (session l).
  Proof using Game_json Hemtt_json Game_short Hemtt_short Classes Folder Menus. exact (good_safe _ _ _ _ _ _ _ _ _ (reached l)). Qed.

  (** However turns fall: what HEMTT has asked for so far is the beginning of the list of requests, so nothing is asked for twice,
      and the game is not stopped before all has been asked for. *)
  Theorem C95_requests : forall l, exists rest, requests weapons previews = sent (H (session l)) ++ rest.
  Proof using Game_json Hemtt_json Game_short Hemtt_short Classes Folder Menus. intros l. apply (s_sent _ _ _ _ _ (always l)). Qed.

  Lemma sound_at m : sound weapons previews there m -> forall m1 t c m2, m = m1 ++ (t, c) :: m2 -> In (c, t) previews \/ (In (c, t) weapons /\ there t = false /\ ~ In t (map fst m2)).
  Proof using.
    induction m as [|[t' c'] m IH]; intros S m1 t c m2 Em; [destruct m1; discriminate Em|]. destruct S as [S1 S2]. destruct m1 as [|x m1]; cbn [app] in Em.
    - injection Em as -> -> ->. exact S1.
    - injection Em as _ Em. exact (IH S2 m1 t c m2 Em).
  Qed.
  (** A picture is made (newest first) only where the project wants that of a class to be;
      that of a weapon is not put over a picture that was there, nor over one made before. *)
  Theorem C95_pictures : forall l m1 t c m2, made (D (session l)) = m1 ++ (t, c) :: m2 ->
    In (c, t) previews \/ (In (c, t) weapons /\ there t = false /\ ~ In t (map fst m2)).
  Proof using Game_json Hemtt_json Game_short Hemtt_short Classes Folder Menus. intros l m1 t c m2 Em. exact (sound_at _ (s_sound _ _ _ _ _ (always l)) m1 t c m2 Em). Qed.

  (** When the game is told that all is done, every weapon's picture is there, and every preview was made. *)
  Theorem C95_done : forall l, In Done (sent (H (session l))) ->
    (forall w t, In (w, t) weapons -> there_now there (session l) t) /\
    (forall c t, In (c, t) previews -> In (t, c) (made (D (session l)))).
  Proof using Game_json Hemtt_json Game_short Hemtt_short Classes Folder Menus.
    intros l Dn. destruct (s_done _ _ _ _ _ (always l) Dn) as (Hh & _ & Hv). split; [|exact Hv].
    intros w t I. apply exists_now_spec. apply (Hh w t); [unfold W; rewrite <- in_rev; now apply (in_map fst) in I|exact I|]. apply find_class_nodup; [apply Classes|exact I].
  Qed.

  (** HEMTT is never stopped by anything but a torn message; *)
  Theorem C95_only_torn : forall l r, h_at (H (session l)) = Dead r -> r = Torn.
  Proof using Game_json Hemtt_json Game_short Hemtt_short Classes Folder Menus. intros l r. apply (s_dead _ _ _ _ _ (always l)). Qed.
  (** nor by that, if no side looks for a message while the other is between its two writes of one. *)
  Theorem C95_careful : forall l, careful act l (start weapons menus folder) -> ~ torn (session l) /\ forall r, h_at (H (session l)) <> Dead r.
  Proof using Game_json Hemtt_json Game_short Hemtt_short Classes Folder Menus.
    intros l C. assert (NT : ~ torn (session l)).
    { apply (careful_run write_g read_g write_h read_h weapons previews there uniform (folder ++ bs "\autotest\photoshoot.VR\") folder) with (say_ok := could_say weapons missions) (x := PA) (u := []) (t := []);
        try (intros; apply Game_json); try (intros; apply Hemtt_json); auto; try exact Logic.I; [apply says|apply Classes|now apply mission_splits|apply begin| |discriminate].
      split; intros K; now destruct K. }
    split; [exact NT|]. intros r K. apply NT. left. pose proof (C95_only_torn l r K). now subst.
  Qed.

  (** If all weapons are uniforms (what the mission can take pictures of): there is a number of rounds after which the game
      has gone, all done, or a message was torn. *)
  Theorem C95_ends : (forall w, In w (map fst weapons) -> uniform w = true) ->
    exists k, forall l, rounds k l -> torn (session l) \/ (h_at (H (session l)) = Gone /\ In Done (sent (H (session l)))).
  Proof using Game_json Hemtt_json Game_short Hemtt_short Classes Folder Menus.
    intros U. exists (S (mu previews (start weapons menus folder) [] [])). intros l R.
    assert (F : fin (session l)).
    { apply (fair write_g read_g write_h read_h weapons previews there uniform (folder ++ bs "\autotest\photoshoot.VR\") folder) with (say_ok := could_say weapons missions) (x := PA) (u := []) (t := []) (k := S (mu previews (start weapons menus folder) [] []));
        try (intros; apply Game_json); try (intros; apply Hemtt_json); auto; try exact Logic.I; [apply says|apply Classes|now apply mission_splits|apply begin|].
      apply Forall_forall. intros w I. apply U. unfold W in I. now rewrite <- in_rev in I. }
    destruct F as [T|Gn]; [now left|]. right. split; [exact Gn|]. apply (s_gone _ _ _ _ _ (always l) Gn).
  Qed.
  (** With no message torn, the session ends with all pictures there. *)
  Theorem C95_complete : (forall w, In w (map fst weapons) -> uniform w = true) ->
    exists k, forall l, rounds k l -> careful act l (start weapons menus folder) ->
      h_at (H (session l)) = Gone /\ (forall w t, In (w, t) weapons -> there_now there (session l) t) /\ (forall c t, In (c, t) previews -> In (t, c) (made (D (session l)))).
  Proof using Game_json Hemtt_json Game_short Hemtt_short Classes Folder Menus.
    intros U. destruct (C95_ends U) as (k & K). exists k. intros l R C. destruct (K l R) as [T|(Gn & Dn)]; [now destruct (C95_careful l C)|]. split; [exact Gn|]. exact (C95_done l Dn).
  Qed.

  (** With a weapon that is not a uniform the game is never told to stop: the mission calls a function that the extension does not have, and HEMTT waits. *)
  Theorem C95_unsupported : forall w, In w (map fst weapons) -> uniform w = false -> forall l, ~ In Done (sent (H (session l))) /\ h_at (H (session l)) <> Gone.
  Proof using Game_json Hemtt_json Game_short Hemtt_short Classes Folder Menus.
    intros w I U l. assert (ND : ~ In Done (sent (H (session l)))).
    { intros Dn. destruct (s_done _ _ _ _ _ (always l) Dn) as (_ & Hc & _). unfold can, W in Hc. rewrite Forall_forall in Hc. specialize (Hc w). rewrite <- in_rev in Hc. specialize (Hc I). congruence. }
    split; [exact ND|]. intros Gn. apply ND. exact (s_gone _ _ _ _ _ (always l) Gn).
  Qed.
End Session.

(** *** A session: two uniforms, of which one has its picture, and one preview *)

(** A way to write messages. *)
Definition put_g (m : to_game) : bytes := match m with Exit => [0] | Weapon c => 1 :: c | Preview c => 2 :: c | PreviewRun => [3] | Done => [4] end.
Definition get_g (b : bytes) : option to_game :=
  match b with 0 :: [] => Some Exit | 1 :: c => Some (Weapon c) | 2 :: c => Some (Preview c) | 3 :: [] => Some PreviewRun | 4 :: [] => Some Done | _ => None end.
Definition put_h (m : to_hemtt) : bytes := match m with Mission p => 0 :: p | Log p => 1 :: p | Ready => [2] | Shot w => 3 :: w | Previews => [4] end.
Definition get_h (b : bytes) : option to_hemtt :=
  match b with 0 :: p => Some (Mission p) | 1 :: p => Some (Log p) | 2 :: [] => Some Ready | 3 :: w => Some (Shot w) | 4 :: [] => Some Previews | _ => None end.

Definition ex_weapons : list (text * text) := [(bs "U_A", bs "a.paa"); (bs "U_B", bs "b.paa")].
Definition ex_previews : list (text * text) := [(bs "C", bs "c.jpg")].
Definition ex_there (t : text) : bool := eqb_bytes t (bs "b.paa").
Definition ex_uniform (w : text) : bool := starts_with (bs "U_") w.
Definition ex_start : state := start ex_weapons [bs "\menu\"] (bs "Z:\tmp").
Notation ex_act := (act put_g get_g put_h get_h ex_weapons ex_previews ex_there ex_uniform).
Notation ex_run := (run put_g get_g put_h get_h ex_weapons ex_previews ex_there ex_uniform).

Lemma short_text b : (length b <= 100)%nat -> blen b < 2 ^ 32 - 1.
Proof. intros L. unfold blen. apply N.le_lt_trans with 100; [|reflexivity]. change 100 with (N.of_nat 100). lia. Qed.
(** It meets the hypotheses. *)
Example C95_hypotheses :
  (forall m, get_g (put_g m) = Some m /\ put_g m <> []) /\ (forall m, get_h (put_h m) = Some m /\ put_h m <> []) /\
  (forall m, In m (requests ex_weapons ex_previews) -> blen (put_g m) < 2 ^ 32 - 1) /\
  (forall m, could_say ex_weapons ([bs "\menu\"] ++ [bs "Z:\tmp" ++ bs "\autotest\photoshoot.VR\"]) m -> blen (put_h m) < 2 ^ 32 - 1) /\
  (NoDup (map fst ex_weapons) /\ NoDup (map fst ex_previews)) /\
  (forall a b, bs "Z:\tmp" ++ [92] <> a ++ bs "\autotest\" ++ b) /\
  (forall m a b, In m [bs "\menu\"] -> m <> a ++ bs "\autotest\" ++ b) /\
  (forall w, In w (map fst ex_weapons) -> ex_uniform w = true).
Proof.
  assert (L : forall a b, (10 <= length (a ++ bs "\autotest\" ++ b))%nat).
  { intros a b. rewrite !app_length. change (length (bs "\autotest\")) with 10%nat. lia. }
  split; [intros []; (split; [reflexivity|discriminate])|]. split; [intros []; (split; [reflexivity|discriminate])|]. split; [|split; [|split; [|split; [|split]]]].
  - apply Forall_forall. repeat constructor.
  - intros m Q. apply short_text. destruct m as [p|p| |w|]; cbn [could_say] in Q.
    + destruct Q as [<-|[<-|[]]]; apply Nat.leb_le; vm_compute; reflexivity.
    + destruct Q as (w & u & [<-|[<-|[]]] & I); destruct u; destruct I as [E|[E|[E|[]]]]; injection E as <-; apply Nat.leb_le; vm_compute; reflexivity.
    + apply Nat.leb_le. reflexivity.
    + destruct Q as [<-|[<-|[]]]; apply Nat.leb_le; vm_compute; reflexivity.
    + apply Nat.leb_le. reflexivity.
  - split; repeat constructor; cbn [map fst In ex_weapons]; intros Q; repeat destruct Q as [Q|Q]; try discriminate Q; exact Q.
  - intros a b E. specialize (L a b). rewrite <- E in L. apply Nat.leb_le in L. vm_compute in L. discriminate L.
  - intros m a b [<-|[]] E. specialize (L a b). rewrite <- E in L. apply Nat.leb_le in L. vm_compute in L. discriminate L.
  - intros w [<-|[<-|[]]]; reflexivity.
Qed.

Fixpoint carefulb (l : list actor) (s : state) : bool :=
  match l with
  | [] => true
  | a :: l' =>
      negb (match a, h_at (H s), e_at (E s) with
            | Hemtt_turn, Polling, Sending ws => Nat.odd (length ws)
            | _, _, _ => false end) &&
      negb (match a, e_at (E s), h_at (H s) with
            | Ext_read, Waiting, Writing ws => Nat.odd (length ws)
            | _, _, _ => false end) && carefulb l' (ex_act a s)
  end%bool.
Lemma carefulb_ok l : forall s, carefulb l s = true -> careful ex_act l s.
Proof.
  induction l as [|a l IH]; intros s; cbn [carefulb careful]; [auto|]. rewrite !andb_true_iff, !negb_true_iff. intros ((A & B) & C). split; [|split; [|now apply IH]].
  - intros -> P ws W. rewrite P, W in A. unfold in_between. congruence.
  - intros -> P ws W. rewrite P, W in B. unfold in_between. congruence.
Qed.
Definition ex_round : list actor :=
  [Hemtt_turn; Hemtt_turn; Ext_read; Ext_read; Ext_send; Ext_send; Ext_send; Game_ready; Game_call; Game_export; Game_shoot; Game_quit].
Definition ex_schedule (k : nat) : list actor := List.concat (repeat ex_round k).
(** All the pictures are taken in 30 rounds; that of U_B, which was there, is not made again. *)
Example C95_session : careful ex_act (ex_schedule 30) ex_start /\ h_at (H (ex_run (ex_schedule 30) ex_start)) = Gone /\
  made (D (ex_run (ex_schedule 30) ex_start)) = [(bs "a.paa", bs "U_A"); (bs "c.jpg", bs "C")] /\
  sent (H (ex_run (ex_schedule 30) ex_start)) = [Preview (bs "C"); PreviewRun; Weapon (bs "U_B"); Weapon (bs "U_A"); Done].
Proof. split; [apply carefulb_ok; vm_compute; reflexivity|]. vm_compute. auto. Qed.

(** Two writes and two reads: HEMTT looks between the writes of the first message, and panics. *)
Definition ex_torn : list actor := [Ext_send; Ext_send; Hemtt_turn; Hemtt_turn].
Theorem C95_torn_refuted : h_at (H (ex_run ex_torn ex_start)) = Dead Torn.
Proof. vm_compute. reflexivity. Qed.
(** The extension looks between the writes of the first answer, and stops: nothing more is taken. *)
Definition ex_torn_late : list actor :=
  Game_ready :: List.concat (repeat [Ext_send; Ext_send; Ext_send; Hemtt_turn; Hemtt_turn] 3) ++ [Hemtt_turn; Ext_read; Ext_read].
Theorem C95_torn_game_refuted : e_at (E (ex_run ex_torn_late ex_start)) = Stopped.
Proof. vm_compute. reflexivity. Qed.

(** A profile kept below a folder named autotest: the mission is not recognised, and HEMTT panics. *)
Theorem C95_folder_refuted :
  h_at (H (ex_run (ex_schedule 8) (start ex_weapons [] (bs "Z:\autotest\tmp")))) = Dead NoAction.
Proof. vm_compute. reflexivity. Qed.

Print Assumptions C95_requests.
Print Assumptions C95_pictures.
Print Assumptions C95_done.
Print Assumptions C95_only_torn.
Print Assumptions C95_careful.
Print Assumptions C95_ends.
Print Assumptions C95_complete.
Print Assumptions C95_unsupported.
Print Assumptions C95_torn_refuted.
Print Assumptions C95_torn_game_refuted.
Print Assumptions C95_folder_refuted.
