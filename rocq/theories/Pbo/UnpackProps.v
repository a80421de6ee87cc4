(** C88: unpacking and extracting an archive. *)
From Coq Require Import String.
From Verif Require Import Base.Tactics Base.Bytes Base.Sort Base.Ascii Base.Text Io.Model Io.Spec Pbo.Model Pbo.Spec
  Pbo.History Pbo.Proofs Pbo.Final Pbo.Props Pbo.UnpackModel Pbo.UnpackSpec Pbo.UnpackProofs.
From Coq Require Import Permutation.
Local Open Scope N_scope.
Local Open Scope list_scope.

(** Whatever the archive holds, a folder that exists already is left alone. *)
Theorem C88_never_into_existing :
  forall lower input out d,
  (out = [] \/ d out <> None) -> fst (unpack lower input out d) = d.
Proof.
  intros lower input out d H. unfold unpack. destruct (read input); [|reflexivity].
  assert (E : exists_at d out = true).
  { unfold exists_at. destruct H as [->|H]; [reflexivity|]. destruct out; [reflexivity|]. now destruct (d (_ :: _)). }
  now rewrite E.
Qed.
Print Assumptions C88_never_into_existing.

(** When no name in the archive climbs, nothing outside the folder changes, and nothing that was on the disk is
    changed or lost, however the command ends. *)
Theorem C88_stays_inside :
  forall lower input out d,
  ~ In (bs "..") out ->
  (forall r, read input = Ok r -> forall h, In h (r_headers r) -> ~ climbs (h_name h)) ->
  outside_kept d (fst (unpack lower input out d)) out /\
  (tree d -> forall p n, d p = Some n -> fst (unpack lower input out d) p = Some n).
Proof.
  intros lower input out d Ho Hc.
  assert (K : outside_kept d (fst (unpack lower input out d)) out).
  { destruct (read input) as [r|e] eqn:Er.
    - apply (unpack_outside lower input r out d Er Ho). intros h Hh. apply not_climbing. now apply (Hc r).
    - intros p _. left. unfold unpack. now rewrite Er. }
  split; [exact K|]. intros Ht p n Hp.
  assert (D : {forall r, p <> out ++ r} + {exists r, p = out ++ r}).
  { clear. revert p. induction out as [|x o IH]; intro p; [right; now exists p|].
    destruct p as [|y p]; [left; intros r E; discriminate|]. destruct (eqb_bytes x y) eqn:E.
    - apply eqb_bytes_spec in E. subst y. destruct (IH p) as [H|H]; [left|right].
      + intros r [= E]. now apply (H r).
      + destruct H as (r & ->). now exists r.
    - left. apply eqb_bytes_false in E. intros r [= E2 _]. congruence. }
  destruct D as [D|(r & ->)].
  - destruct (K p D) as [E|(E & _)]; congruence.
  - rewrite C88_never_into_existing; [exact Hp|]. destruct r as [|x r].
    + right. rewrite app_nil_r in Hp. congruence.
    + destruct (Ht out (x :: r)) as [H|H]; [easy|congruence|now left|right; congruence].
Qed.
Print Assumptions C88_stays_inside.

(** An accepted archive whose names are ordinary, distinct ignoring case and not in each other's way is
    unpacked to exactly its files, each with its own bytes, and the two files made from its properties. *)
Theorem C88_exactly_the_archive :
  forall lower input r out d,
  is_bytes input -> read input = Ok r -> tree d -> can_be_made d out ->
  exists es term bodies sep,
    archive input es term bodies sep (r_checksum r) /\ r_headers r = files_of es /\
    (table_clean es term ->
     forall paths,
       Forall2 (fun h p => leads_to (h_name h) p) (r_headers r) paths ->
       NoDup (map (fun h => lower (h_name h)) (r_headers r)) ->
       apart ([bs "$PBOPREFIX$"] :: [bs "properties.txt"] :: paths) ->
       exists d' pf,
         unpack lower input out d = (d', Done) /\ property_files (r_props r) pf /\
         holds_exactly d' out (pf ++ combine paths bodies)).
Proof.
  intros lower input r out d Hby Hr Ht Hf.
  destruct (C06_file_returns_its_own_bytes lower input r Hby Hr) as (es & term & bodies & sep & Ha & Hh & Hc).
  exists es, term, bodies, sep. split; [exact Ha|]. split; [exact Hh|]. intros Hcl paths Hp Hnd Hap.
  specialize (Hc Hcl). eapply unpack_exact; eauto.
  assert (Hlen : length bodies = length (r_headers r)).
  { destruct Ha as (_ & Hm & _). apply (f_equal (@length N)) in Hm. rewrite !map_length in Hm. now rewrite Hm, <- Hh. }
  assert (Hnorm : forall h, In h (r_headers r) -> norm (h_name h) = h_name h).
  { intros h Hin. destruct (In_nth_error _ _ Hin) as (i & Hi).
    assert (exists p, leads_to (h_name h) p) as (p & -> & _ & Ho).
    { clear - Hp Hin. induction Hp as [|x y l l' Hxy Hl IH]; [destruct Hin|]. destruct Hin as [<-|Hin]; [eauto|auto]. }
    clear - Ho. unfold norm. rewrite <- (map_id (glued p)) at 2. apply map_ext_in. intros b Hb.
    destruct (N.eqb_spec b 47) as [->|]; [|reflexivity]. exfalso.
    induction p as [|x p IH]; [destruct Hb|]. inversion Ho as [|? ? (_ & _ & _ & Hx & _) Ho']; subst.
    destruct p as [|y p]; [contradiction|]. change (glued (x :: y :: p)) with (x ++ [92] ++ glued (y :: p)) in Hb.
    apply in_app_or in Hb as [Hb|Hb]; [contradiction|]. destruct Hb as [Hb|Hb]; [discriminate|]. now apply IH. }
  assert (G : forall i h, nth_error (r_headers r) i = Some h ->
     exists c, nth_error bodies i = Some c /\ r_file lower (h_name h) r = Some c).
  { intros i h Hi. pose proof (Hnorm h (nth_error_In _ _ Hi)) as En.
    destruct (Hc (h_name h)) as [Hc1 _]. rewrite En in Hc1. destruct (Hc1 i h Hi eq_refl) as (c & H1 & H2 & _); [|eauto].
    intros j h' Hj Hj' El. assert (Hij : j = i); [|lia].
    apply (proj1 (NoDup_nth_error _) Hnd).
    - rewrite map_length. apply nth_error_Some. congruence.
    - rewrite !nth_error_map, Hj', Hi. cbn. now rewrite El. }
  clear - G Hlen. revert bodies Hlen G. induction (r_headers r) as [|h hs IH]; intros [|c cs] Hlen G; try discriminate; constructor.
  - destruct (G 0%nat h eq_refl) as (c' & [= ->] & H). exact H.
  - apply IH; [now injection Hlen|]. intros i h' Hi. exact (G (S i) h' Hi).
Qed.
Print Assumptions C88_exactly_the_archive.

Lemma forall2_choice {A B} (P : A -> B -> Prop) l : (forall x, In x l -> exists y, P x y) -> exists ys, Forall2 P l ys.
Proof.
  induction l as [|x l IH]; intro H; [exists []; constructor|].
  destruct (H x (or_introl eq_refl)) as (y & Hy). destruct IH as (ys & Hys); [intros z Hz; apply H; now right|].
  exists (y :: ys). now constructor.
Qed.

Lemma forall2_in_l {A B} (P : A -> B -> Prop) l l' y : Forall2 P l l' -> In y l' -> exists x, In x l /\ P x y.
Proof.
  induction 1 as [|a b l l' Hab Hl IH]; intro Hin; [destruct Hin|]. destruct Hin as [<-|Hin]; [exists a; split; [now left|exact Hab]|].
  destruct (IH Hin) as (x & Hx & Hp). exists x. split; [now right|exact Hp].
Qed.

Lemma combine_in2 {A} (P : A -> path -> Prop) (Q : A -> bytes -> Prop) l ps cs : Forall2 P l ps -> Forall2 Q l cs ->
  forall p c, In (p, c) (combine ps cs) -> exists x, In x l /\ P x p /\ Q x c.
Proof.
  intro Hp. revert cs. induction Hp as [|x p l ps Hxp Hl IH]; intros cs Hq p' c Hin; [destruct Hin|].
  inversion Hq as [|? c0 ? cs' Hxc Hq']; subst. destruct Hin as [E|Hin].
  - exists x. assert (p = p' /\ c0 = c) as [-> ->] by (split; congruence). split; [now left|auto].
  - destruct (IH _ Hq' _ _ Hin) as (z & Hz & H). exists z. split; [now right|exact H].
Qed.
Lemma combine_in2' {A} (P : A -> path -> Prop) (Q : A -> bytes -> Prop) l ps cs : Forall2 P l ps -> Forall2 Q l cs ->
  forall x, In x l -> exists p c, In (p, c) (combine ps cs) /\ P x p /\ Q x c.
Proof.
  intro Hp. revert cs. induction Hp as [|x p l ps Hxp Hl IH]; intros cs Hq z Hz; [destruct Hz|].
  inversion Hq as [|? c0 ? cs' Hxc Hq']; subst. destruct Hz as [<-|Hz].
  - exists p, c0. split; [now left|auto].
  - destruct (IH _ Hq' _ Hz) as (p' & c' & Hin & H). exists p', c'. split; [now right|exact H].
Qed.

Lemma nodup_paths hs paths : Forall2 (fun h p => leads_to (h_name h) p) hs paths -> NoDup (map h_name hs) -> NoDup paths.
Proof.
  induction 1 as [|h p hs ps Hh Hl IH]; intro Hn; [constructor|]. cbn in Hn. inversion Hn as [|? ? H1 H2]; subst.
  constructor; [|now apply IH]. intro Hin. destruct (forall2_in_l _ _ _ _ Hl Hin) as (h' & Hh' & Hp').
  apply H1. destruct Hh as [E _], Hp' as [E' _]. rewrite E, <- E'. now apply in_map.
Qed.

Lemma filter_idem {A} (f : A -> bool) l : filter f (filter f l) = filter f l.
Proof. induction l as [|x l IH]; cbn; [reflexivity|]. destruct (f x) eqn:E; cbn; [rewrite E|]; now rewrite IH. Qed.
Lemma filter_neg {A} (f : A -> bool) l : filter (fun x => negb (f x)) (filter f l) = [].
Proof. induction l as [|x l IH]; cbn; [reflexivity|]. destruct (f x) eqn:E; cbn; [rewrite E; cbn|]; exact IH. Qed.

Lemma text_prefix_first ps : property_text (prefix_first ps) = property_text ps.
Proof.
  unfold property_text, prefix_first. rewrite filter_app. change s_prefix with (bs "prefix").
  rewrite (filter_neg (fun kv : bytes * bytes => eqb_bytes (fst kv) (bs "prefix"))), filter_idem. reflexivity.
Qed.

Lemma in_prefix_first ps kv : In kv (prefix_first ps) <-> In kv ps.
Proof.
  unfold prefix_first. rewrite in_app_iff, !filter_In. destruct (eqb_bytes (fst kv) s_prefix); cbn; intuition congruence.
Qed.

(** Unpacking what HEMTT packed gives back exactly the files added, and the properties. *)
Theorem C88_unpacks_what_was_packed :
  forall lower sha ops iter out d,
  (forall x, length (sha x) = 20%nat) ->
  Forall plain_op ops -> Permutation iter (w_files (run ops)) -> unique_ignoring_case lower ops ->
  tree d -> can_be_made d out ->
  (forall n c, newest_file n ops c -> exists p, stored_at n p) ->
  (forall n c p, newest_file n ops c -> stored_at n p ->
     (forall r, p <> bs "$PBOPREFIX$" :: r) /\ (forall r, p <> bs "properties.txt" :: r) /\
     forall n' c' p', newest_file n' ops c' -> stored_at n' p' -> ~ on_the_way p p') ->
  exists packed digest d',
    write lower sha iter true (run ops) = Ok (packed, digest) /\
    unpack lower packed out d = (d', Done) /\ outside_kept d d' out /\
    forall p c, p <> [] ->
      (d' (out ++ p) = Some (File c) <->
         (exists n, newest_file n ops c /\ stored_at n p) \/
         (p = [bs "$PBOPREFIX$"] /\ newest_property (bs "prefix") ops c) \/
         (p = [bs "properties.txt"] /\ c = property_text (w_props (run ops)) /\
            exists k v, k <> bs "prefix" /\ newest_property k ops v)).
Proof.
  intros lower sha ops iter out d Hsha Hpl HP Hu Ht Hf Hst Hap.
  destruct (C03_written_archive_reads_back lower sha ops iter true Hsha Hpl HP)
    as (packed & digest & r & Hw & Hr & _ & Hpr & _ & Hnd & Hh & Hfile & _).
  assert (Hlead : forall h, In h (r_headers r) -> exists c p, newest_file (h_name h) ops c /\ stored_at (h_name h) p /\ leads_to (h_name h) p).
  { intros h Hin. apply Hh in Hin as (c & Hn & En & _). destruct (Hst _ _ Hn) as (p & n & Hl & E).
    unfold norm in En. assert (E2 : n = h_name h) by congruence. rewrite E2 in Hl.
    exists c, p. split; [exact Hn|]. split; [|exact Hl]. exists (h_name h). split; [exact Hl|exact En]. }
  destruct (forall2_choice (fun h p => leads_to (h_name h) p) (r_headers r)) as (paths & Hpaths).
  { intros h Hin. destruct (Hlead h Hin) as (c & p & _ & _ & Hl). eauto. }
  assert (Hbody : forall h c, In h (r_headers r) -> newest_file (h_name h) ops c -> r_file lower (h_name h) r = Some c).
  { intros h c Hin Hn. apply Hfile; [exact Hn|]. intros n' c' Hn' El. exact (Hu _ _ _ _ Hn' Hn El). }
  destruct (forall2_choice (fun h c => newest_file (h_name h) ops c /\ r_file lower (h_name h) r = Some c) (r_headers r)) as (bodies & Hbodies).
  { intros h Hin. destruct (Hlead h Hin) as (c & _ & Hn & _). exists c. split; [exact Hn|]. now apply Hbody. }
  assert (Hstored : forall p, In p paths -> exists h c, In h (r_headers r) /\ newest_file (h_name h) ops c /\ stored_at (h_name h) p).
  { intros p Hin. destruct (forall2_in_l _ _ _ _ Hpaths Hin) as (h & Hhin & Hl). exists h.
    destruct (Hlead h Hhin) as (c & p' & Hn & (n & Hl' & En) & _). exists c. split; [exact Hhin|]. split; [exact Hn|].
    exists (h_name h). split; [exact Hl|]. apply Hh in Hhin as (_ & _ & E & _). exact E. }
  destruct (unpack_exact lower packed r out d paths bodies Hr Ht Hf Hpaths) as (d' & pf & E & Hpf & _ & Hx).
  { clear - Hbodies. induction Hbodies as [|h c hs cs [_ Hc] _ IH]; constructor; auto. }
  { split.
    - constructor.
      + intros [H|H]; [vm_compute in H; discriminate|]. destruct (Hstored _ H) as (h & c & _ & Hn & Hs).
        destruct (Hap _ _ _ Hn Hs) as (K & _). now apply (K []).
      + constructor; [|eapply nodup_paths; eauto]. intro H. destruct (Hstored _ H) as (h & c & _ & Hn & Hs).
        destruct (Hap _ _ _ Hn Hs) as (_ & K & _). now apply (K []).
    - assert (One : forall a b, on_the_way [a] [b] -> False).
      { intros a b (x & t & E0). discriminate. }
      assert (NoNil : forall p b, In p paths -> on_the_way p [b] -> False).
      { intros p b H (x & t & E0). destruct (forall2_in_l _ _ _ _ Hpaths H) as (h & _ & (_ & Hne & _)).
        destruct p as [|y [|z p]]; [congruence|discriminate|discriminate]. }
      intros p q [<-|[<-|Hp]] [<-|[<-|Hq]] W; try (now apply One in W); try (now apply NoNil in W).
      + destruct (Hstored _ Hq) as (h & c & _ & Hn & Hs). destruct (Hap _ _ _ Hn Hs) as (K & _).
        destruct W as (x & t & ->). now apply (K (x :: t)).
      + destruct (Hstored _ Hq) as (h & c & _ & Hn & Hs). destruct (Hap _ _ _ Hn Hs) as (_ & K & _).
        destruct W as (x & t & ->). now apply (K (x :: t)).
      + destruct (Hstored _ Hq) as (h & c & _ & Hn & Hs). destruct (Hstored _ Hp) as (h' & c' & _ & Hn' & Hs').
        destruct (Hap _ _ _ Hn' Hs') as (_ & _ & K). exact (K _ _ _ Hn Hs W). }
  exists packed, digest, d'. split; [exact Hw|]. split; [exact E|]. split.
  { pose proof (unpack_outside lower packed r out d Hr (proj1 (proj2 Hf))) as K. rewrite E in K. apply K.
    intros h Hin. destruct (Hlead h Hin) as (c & p & _ & _ & Hl). exact (leads_level _ _ Hl). }
  intros p c Hp. rewrite (proj1 (Hx p Hp) c), in_app_iff, (Hpf p c), Hpr, text_prefix_first.
  pose proof (run_props_nodup ops) as Hpn.
  assert (Hprop : forall k v, In (k, v) (prefix_first (w_props (run ops))) <-> newest_property k ops v).
  { intros k v. rewrite in_prefix_first, <- property_history. unfold w_property.
    split; [now apply im_get_of_in|apply im_get_in]. }
  assert (Hfiles : In (p, c) (combine paths bodies) <-> exists n, newest_file n ops c /\ stored_at n p).
  { split.
    - intro Hin. destruct (combine_in2 _ _ _ _ _ Hpaths Hbodies p c Hin) as (h & Hhin & Hl & Hn & _).
      exists (h_name h). split; [exact Hn|]. exists (h_name h). split; [exact Hl|].
      apply Hh in Hhin as (_ & _ & En & _). exact En.
    - intros (n & Hn & m & Hl & En). apply newest_norm in Hn. change (norm n = m) in En. rewrite En in Hn.
      assert (Em : norm m = m).
      { rewrite <- En. unfold norm. rewrite map_map. apply map_ext. intro b. destruct (b =? 47) eqn:Eb; [reflexivity|now rewrite Eb]. }
      assert (Hhin : In (header_for_file m (blen c)) (r_headers r)).
      { apply Hh. exists c. cbn [h_name header_for_file]. auto. }
      destruct (combine_in2' _ _ _ _ _ Hpaths Hbodies _ Hhin) as (p' & c' & Hin & Hl' & Hn' & _).
      cbn [h_name header_for_file] in Hl', Hn'.
      assert (c' = c).
      { apply file_history in Hn, Hn'. congruence. }
      assert (p' = p).
      { rewrite <- (leads_split _ _ Hl'), <- (leads_split _ _ Hl). reflexivity. }
      subst. exact Hin. }
  rewrite Hfiles, Hprop. split.
  - intros [[H|(-> & -> & k & v & Hin & Hk)]|H]; [right; left; exact H| |left; exact H].
    right. right. split; [reflexivity|]. split; [reflexivity|]. exists k, v. split; [exact Hk|]. now apply Hprop.
  - intros [H|[H|(-> & -> & k & v & Hk & Hin)]]; [right; exact H|left; left; exact H|].
    left. right. split; [reflexivity|]. split; [reflexivity|]. exists k, v. split; [now apply Hprop|exact Hk].
Qed.
Print Assumptions C88_unpacks_what_was_packed.

(** Extracting one file writes the body of the first file so named, ignoring case and the kind of separator, to
    the path given or to standard output, and changes nothing else. *)
Theorem C88_extract :
  forall lower input r, is_bytes input -> read input = Ok r ->
  exists es term bodies sep,
    archive input es term bodies sep (r_checksum r) /\ r_headers r = files_of es /\
    (table_clean es term ->
     forall name d,
       (forall i h body, nth_error (r_headers r) i = Some h -> nth_error bodies i = Some body ->
          lower (h_name h) = lower (norm name) ->
          (forall j h', (j < i)%nat -> nth_error (r_headers r) j = Some h' -> lower (h_name h') <> lower (norm name)) ->
          extract lower input name None d = (d, body, Done) /\
          (forall dir file, (dir = [] \/ d dir = Some Dir) -> d (dir ++ [file]) = None ->
             exists d', extract lower input name (Some (dir ++ [file])) d = (d', [], Done) /\
               d' (dir ++ [file]) = Some (File body) /\ forall q, q <> dir ++ [file] -> d' q = d q)) /\
       ((forall h, In h (r_headers r) -> lower (h_name h) <> lower (norm name)) ->
          forall out, extract lower input name out d = (d, [], Refused))).
Proof.
  intros lower input r Hby Hr.
  destruct (C06_file_returns_its_own_bytes lower input r Hby Hr) as (es & term & bodies & sep & Ha & Hh & Hc).
  exists es, term, bodies, sep. split; [exact Ha|]. split; [exact Hh|]. intros Hcl name d.
  destruct (Hc Hcl name) as [H1 H2]. split.
  - intros i h body Hi Hb El Hfirst. destruct (H1 i h Hi El Hfirst) as (body' & Hb' & Hfile & _).
    assert (body' = body) by congruence. subst body'. unfold extract. rewrite Hr, Hfile. split; [reflexivity|].
    intros dir file Hdir Hno.
    assert (Ex : exists_at d (dir ++ [file]) = false).
    { unfold exists_at. destruct (dir ++ [file]) eqn:E; [now destruct dir|]. now rewrite Hno. }
    rewrite Ex, removelast_last. exists (put (dir ++ [file]) (File body) d). split.
    + destruct dir as [|x dir]; [reflexivity|]. destruct Hdir as [Hdir|Hdir]; [discriminate|]. now rewrite Hdir.
    + split; [apply put_same|]. intros q Hq. apply put_other. congruence.
  - intros Hno out. unfold extract. rewrite Hr, (H2 Hno). reflexivity.
Qed.
Print Assumptions C88_extract.

(** A file that exists is never changed by extracting. *)
Theorem C88_extract_never_over :
  forall lower input name out d p n, d p = Some n -> fst (fst (extract lower input name out d)) p = Some n.
Proof.
  intros lower input name out d p n H. unfold extract. destruct (read input); [|exact H].
  destruct (r_file lower name a); [|exact H]. destruct out as [q|]; [|exact H].
  destruct (exists_at d q) eqn:E; [exact H|].
  assert (Hq : q <> p).
  { intros ->. unfold exists_at in E. destruct p; [discriminate|]. now rewrite H in E. }
  destruct (removelast q); [|destruct (d (_ :: _)) as [[?|]|]]; cbn [fst]; try exact H; now rewrite put_other.
Qed.
Print Assumptions C88_extract_never_over.

(** ** Where it goes wrong *)

Definition an_archive (files : list (bytes * bytes)) : bytes :=
  write_header header_property ++ bs "prefix" ++ [0] ++ bs "x\abe" ++ [0] ++ bs "v" ++ [0] ++ bs "1" ++ [0] ++ [0]
  ++ flat_map (fun f => write_header (header_for_file (fst f) (blen (snd f)))) files ++ write_header header_default
  ++ flat_map snd files ++ [0] ++ repeat 7 20.

Definition a_disk : disk := fun p =>
  if eqb_path p [bs "home"] then Some Dir
  else if eqb_path p [bs "home"; bs "notes"] then Some (File [1])
  else None.
Definition the_out : path := [bs "home"; bs "out"].

Lemma a_disk_cases p n : a_disk p = Some n ->
  p = [bs "home"] /\ n = Dir \/ p = [bs "home"; bs "notes"] /\ n = File [1].
Proof.
  unfold a_disk. destruct (eqb_path p [bs "home"]) eqn:E1.
  { apply eqb_path_spec in E1. intros [= <-]. auto. }
  destruct (eqb_path p [bs "home"; bs "notes"]) eqn:E2; [|discriminate].
  apply eqb_path_spec in E2. intros [= <-]. auto.
Qed.

Lemma a_disk_ok : tree a_disk /\ can_be_made a_disk the_out.
Proof.
  split.
  - intros p r Hr H. destruct (a_disk (p ++ r)) as [n|] eqn:E; [|congruence].
    apply a_disk_cases in E as [[E _]|[E _]].
    + destruct p as [|x p]; [now left|]. exfalso. destruct p, r; try congruence; discriminate.
    + destruct p as [|x [|y p]]; [now left| |].
      * right. assert (x = bs "home") as -> by (apply (f_equal (hd [])) in E; exact E). reflexivity.
      * exfalso. destruct p, r; try congruence; discriminate.
  - split; [easy|]. split; [vm_compute; intuition discriminate|]. split; [reflexivity|].
    intros p c (x & t & E) H. apply a_disk_cases in H as [[_ H]|[-> _]]; [discriminate|].
    apply (f_equal (@length _)) in E. cbn in E. lia.
Qed.

(** A name with `..` overwrites a file outside the folder asked for; the command succeeds. *)
Theorem C88_climbs_out_refuted :
  exists input d',
    unpack ascii_lower input the_out a_disk = (d', Done) /\
    a_disk [bs "home"; bs "notes"] = Some (File [1]) /\ d' [bs "home"; bs "notes"] = Some (File [6; 6]).
Proof.
  exists (an_archive [(bs "..\notes", [6; 6])]). eexists. split; [vm_compute; reflexivity|].
  split; vm_compute; reflexivity.
Qed.
Print Assumptions C88_climbs_out_refuted.

(** So does a name that starts with a separator. *)
Theorem C88_absolute_refuted :
  exists input d',
    unpack ascii_lower input the_out a_disk = (d', Done) /\ d' [bs "home"; bs "notes"] = Some (File [6; 6]).
Proof.
  exists (an_archive [(bs "\home\notes", [6; 6])]). eexists. split; vm_compute; reflexivity.
Qed.
Print Assumptions C88_absolute_refuted.

(** Names that differ only in case: the second file gets the bytes of the first. *)
Theorem C88_case_refuted :
  exists input d',
    (exists pre, input = pre ++ [1; 1] ++ [2; 2] ++ [0] ++ repeat 7 20) /\
    unpack ascii_lower input the_out a_disk = (d', Done) /\
    d' (the_out ++ [bs "A"]) = Some (File [1; 1]) /\ d' (the_out ++ [bs "a"]) = Some (File [1; 1]).
Proof.
  exists (an_archive [(bs "A", [1; 1]); (bs "a", [2; 2])]). eexists. split.
  { eexists. unfold an_archive. cbn [flat_map snd fst]. rewrite !app_nil_r.
    rewrite !(app_assoc _ _ (([1; 1] ++ [2; 2]) ++ _)). rewrite <- (app_assoc [1; 1]). reflexivity. }
  split; [vm_compute; reflexivity|]. split; vm_compute; reflexivity.
Qed.
Print Assumptions C88_case_refuted.

(** A name with a forward slash, which the reader accepts, makes the command panic, with an empty file left. *)
Theorem C88_forward_slash_refuted :
  exists input r d',
    read input = Ok r /\ unpack ascii_lower input the_out a_disk = (d', Panicked) /\
    d' (the_out ++ [bs "f"; bs "a.sqf"]) = Some (File []).
Proof.
  exists (an_archive [(bs "f/a.sqf", [1])]). eexists. eexists. split; [vm_compute; reflexivity|].
  split; vm_compute; reflexivity.
Qed.
Print Assumptions C88_forward_slash_refuted.

(** A packed file named like one of the two property files replaces it. *)
Theorem C88_property_file_refuted :
  exists input d',
    unpack ascii_lower input the_out a_disk = (d', Done) /\
    (forall r, read input = Ok r -> In (bs "prefix", bs "x\abe") (r_props r)) /\
    d' (the_out ++ [bs "$PBOPREFIX$"]) = Some (File [9]).
Proof.
  exists (an_archive [(bs "$PBOPREFIX$", [9])]). eexists. split; [vm_compute; reflexivity|].
  split; [|vm_compute; reflexivity]. intros r H. vm_compute in H. injection H as <-. vm_compute. now left.
Qed.
Print Assumptions C88_property_file_refuted.

(** ** The hypotheses are met. *)
Definition ordinaryb (p : bytes) : bool :=
  negb (eqb_bytes p []) && negb (eqb_bytes p (bs ".")) && negb (eqb_bytes p (bs ".."))
  && negb (contains 47 p) && negb (contains 92 p).
Lemma ordinaryb_spec p : ordinaryb p = true -> ordinary p.
Proof.
  unfold ordinaryb, ordinary. rewrite !andb_true_iff, !negb_true_iff. intros ((((H1 & H2) & H3) & H4) & H5).
  apply eqb_bytes_false in H1, H2, H3. apply contains_false in H4, H5. auto.
Qed.

Lemma demo_newest n c : newest_file n demo_ops c ->
  norm n = bs "functions\fnc_init.sqf" /\ c = [104; 111] \/ norm n = bs "config.bin" /\ c = [0; 114; 97; 80].
Proof.
  intro H. apply file_history in H. unfold w_file in H.
  destruct (im_get (norm n) (w_files (run demo_ops))) as [[c0 h]|] eqn:Eg; [|discriminate].
  injection H as <-. apply im_get_in in Eg. vm_compute in Eg. destruct Eg as [Eg|[Eg|[]]].
  - left. split; [symmetry; exact (f_equal fst Eg)|symmetry; exact (f_equal (fun x => fst (snd x)) Eg)].
  - right. split; [symmetry; exact (f_equal fst Eg)|symmetry; exact (f_equal (fun x => fst (snd x)) Eg)].
Qed.

Lemma demo_stored n p : stored_at n p ->
  (norm n = bs "functions\fnc_init.sqf" -> p = [bs "functions"; bs "fnc_init.sqf"]) /\
  (norm n = bs "config.bin" -> p = [bs "config.bin"]).
Proof.
  intros (m & Hl & En). change (norm n = m) in En. subst m. pose proof (leads_split _ _ Hl) as E.
  split; intro H; rewrite H in E; rewrite <- E; reflexivity.
Qed.

Example C88_example :
  exists packed digest d',
    write ascii_lower len_digest (w_files (run demo_ops)) true (run demo_ops) = Ok (packed, digest) /\
    unpack ascii_lower packed the_out a_disk = (d', Done) /\
    d' (the_out ++ [bs "functions"; bs "fnc_init.sqf"]) = Some (File [104; 111]) /\
    d' (the_out ++ [bs "$PBOPREFIX$"]) = Some (File (bs "x\abe\addons\main")) /\
    d' (the_out ++ [bs "properties.txt"]) = Some (File (bs "hemtt=1.0" ++ [10])).
Proof.
  destruct (C88_unpacks_what_was_packed ascii_lower len_digest demo_ops (w_files (run demo_ops)) the_out a_disk)
    as (packed & digest & d' & Hw & Hu & _ & Hd).
  - intro x. reflexivity.
  - exact demo_plain.
  - apply Permutation_refl.
  - exact (proj2 C05_example).
  - exact (proj1 a_disk_ok).
  - exact (proj2 a_disk_ok).
  - intros n c H. apply demo_newest in H as [[E _]|[E _]].
    + exists [bs "functions"; bs "fnc_init.sqf"]. exists (norm n). split; [|reflexivity]. rewrite E.
      split; [reflexivity|]. split; [easy|]. repeat constructor; apply ordinaryb_spec; reflexivity.
    + exists [bs "config.bin"]. exists (norm n). split; [|reflexivity]. rewrite E.
      split; [reflexivity|]. split; [easy|]. repeat constructor; apply ordinaryb_spec; reflexivity.
  - assert (P : forall n c p, newest_file n demo_ops c -> stored_at n p ->
      p = [bs "functions"; bs "fnc_init.sqf"] \/ p = [bs "config.bin"]).
    { intros n c p H Hs. pose proof (demo_stored _ _ Hs) as [S1 S2]. apply demo_newest in H as [[E _]|[E _]]; auto. }
    intros n c p H Hs. apply (P n c p H) in Hs as Hp.
    assert (Hhd : forall x r, p = x :: r -> x = bs "functions" \/ x = bs "config.bin").
    { intros x r E. destruct Hp as [->| ->]; apply (f_equal (hd [])) in E; [left|right]; symmetry; exact E. }
    split; [|split].
    + intros r E. apply Hhd in E as [E|E]; vm_compute in E; discriminate.
    + intros r E. apply Hhd in E as [E|E]; vm_compute in E; discriminate.
    + intros n' c' p' H' Hs' (x & t & E). apply (P n' c' p' H') in Hs'.
      destruct Hp as [->| ->]; destruct Hs' as [->| ->]; vm_compute in E; discriminate.
  - exists packed, digest, d'. split; [exact Hw|]. split; [exact Hu|].
    vm_compute in Hw. injection Hw as <- _. vm_compute in Hu. injection Hu as <-. 
    split; [|split]; vm_compute; reflexivity.
Qed.
