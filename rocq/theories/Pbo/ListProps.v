(** C107. *)
From Coq Require Import String.
From Verif Require Import Base.Tactics Base.Bytes Base.Sort Base.Ascii Io.Model Io.Spec Pbo.Model Pbo.Spec Pbo.Proofs Pbo.Roundtrip Pbo.History Pbo.Foreign Pbo.Final Pbo.Props Pbo.ListModel Pbo.ListSpec.
From Verif Require Pbo.UnpackModel Pbo.UnpackProps.
Local Open Scope N_scope.
Local Open Scope list_scope.

(** ** The order *)
Lemma sorted_go_spec lower h hs : sorted_go lower h hs = true <-> StronglySorted (fun x y => cmp_bytes (lower x) (lower y) <> Gt) (map h_name (h :: hs)).
Proof.
  revert h. induction hs as [|x hs IH]; intros h; cbn [sorted_go map].
  - split; [|reflexivity]. intros _. constructor; constructor.
  - unfold lname. split.
    + intros H. assert (C : cmp_bytes (lower (h_name h)) (lower (h_name x)) <> Gt) by (intros E; rewrite E in H; discriminate).
      assert (G : sorted_go lower x hs = true) by (destruct (cmp_bytes (lower (h_name h)) (lower (h_name x))); [exact H|exact H|now elim C]).
      apply IH in G. constructor; [exact G|]. cbn [map] in G. constructor; [exact C|]. inversion G as [|? ? _ F]; subst.
      eapply Forall_impl; [|exact F]. cbv beta. intros y Y. eapply cmp_bytes_le_trans; [exact C|exact Y].
    + intros H. inversion H as [|? ? S F]; subst. inversion F as [|? ? C _]; subst.
      destruct (cmp_bytes (lower (h_name h)) (lower (h_name x))) eqn:E; [| |now elim C]; apply IH; exact S.
Qed.
Lemma is_sorted_spec lower r : is_sorted lower r = true <-> in_order lower (map h_name (r_headers r)).
Proof.
  unfold is_sorted, in_order. destruct (r_headers r) as [|h hs]; [split; [constructor|reflexivity]|]. apply sorted_go_spec.
Qed.

(** Of every archive there is, the listing has its properties, its checksum and the rows of its table in their order; it is called
    sorted if the names are in order, and warned of otherwise; the checksum is warned of if it is not the one computed. *)
Theorem C107_listing : forall lower sha input l, is_bytes input -> inspect lower sha input = Shows l ->
  exists es term bodies sep, archive input es term bodies sep (stored l) /\
    rows l = map (fun h => Row (h_name h) (h_mime h) (h_size h) (h_original h) (h_timestamp h)) (files_of es) /\
    (sorted l = true <-> in_order lower (map filename (rows l))) /\ (unsorted l = true <-> ~ in_order lower (map filename (rows l))) /\ (invalid l = true <-> stored l <> actual l).
Proof.
  intros lower sha input l B H. unfold inspect in H. destruct (read input) as [r|[]] eqn:R; try discriminate.
  destruct (gen_checksum lower sha r) as [a|[]]; try discriminate. injection H as <-. cbn [stored rows sorted unsorted invalid actual].
  destruct (read_inv input r B R) as (es & term & bodies & sep & A & Hh & _). exists es, term, bodies, sep. split; [exact A|]. split; [now rewrite Hh|].
  rewrite map_map. cbn [filename]. pose proof (is_sorted_spec lower r) as X. split; [exact X|]. split.
  - destruct (is_sorted lower r); cbn [negb]; split; [discriminate|intros N; elim N; now apply X|intros _ Y; now apply X in Y|reflexivity].
  - destruct (eqb_bytes (r_checksum r) a) eqn:E; cbn [negb].
    + apply eqb_bytes_spec in E. split; [discriminate|intros N; now elim N].
    + apply eqb_bytes_false in E. split; [now intros _|reflexivity].
Qed.

(** Checksums are shown as two digits of 0-9a-f for each byte, so two that are shown alike are the same. *)
Lemma digit_inj a b : a < 16 -> b < 16 -> digit a = digit b -> a = b.
Proof. unfold digit. intros A B. destruct (N.ltb_spec a 10); destruct (N.ltb_spec b 10); lia. Qed.
Theorem C107_hex : forall a b, is_bytes a -> is_bytes b ->
  (hex a = hex b <-> a = b) /\ length (hex a) = (2 * length a)%nat /\ Forall (fun c => 48 <= c <= 57 \/ 97 <= c <= 102) (hex a).
Proof.
  intros a b A B. split; [|split].
  - split; [|now intros ->]. revert b B. induction a as [|x a IH]; intros [|y b] B E; try reflexivity; try discriminate. unfold hex in E. cbn [flat_map app] in E. fold (hex a) (hex b) in E. inversion A as [|? ? X A']; subst. inversion B as [|? ? Y B']; subst.
    assert (E1 := f_equal (hd 0) E). assert (E2 := f_equal (fun l => hd 0 (tl l)) E). assert (E3 := f_equal (fun l => tl (tl l)) E). cbn [hd tl] in E1, E2, E3.
    apply digit_inj in E1; [|lia|lia]. apply digit_inj in E2; [|lia|lia]. f_equal; [|now apply IH]. lia.
  - clear A. induction a as [|x a IH]; [reflexivity|]. unfold hex in *. cbn [flat_map app length]. rewrite IH. lia.
  - induction a as [|x a IH]; [constructor|]. inversion A as [|? ? X A']; subst. unfold hex in *. cbn [flat_map app].
    assert (D : forall n, n < 16 -> 48 <= digit n <= 57 \/ 97 <= digit n <= 102) by (intros n L; unfold digit; destruct (N.ltb_spec n 10); lia).
    constructor; [apply D; lia|]. constructor; [apply D; lia|]. now apply IH.
Qed.
Example hex_example : hex [0; 255; 160; 9] = bs "00ffa009".
Proof. reflexivity. Qed.

(** ** Archives with the checksum of another *)
Lemma altered lower sha ops iter pre d ck : (forall x, length (sha x) = 20%nat) -> Forall plain_op ops -> Permutation iter (w_files (run ops)) -> unique_ignoring_case lower ops ->
  write lower sha iter true (run ops) = Ok (pre ++ [0] ++ d, d) -> length ck = 20%nat ->
  exists r, read (pre ++ [0] ++ ck) = Ok r /\ gen_checksum lower sha r = Ok (sha pre) /\ d = sha pre /\ r_checksum r = ck /\ r_props r = prefix_first (w_props (run ops)) /\
    r_headers r = sorted_headers lower iter.
Proof.
  intros Hs Hp HP Hu Hw Hck. pose proof (plain_run ops Hp) as W. set (hs := sorted_headers lower iter).
  pose proof (write_spec lower sha _ iter true W HP) as Ew. pose proof (read_written lower (fun _ => ck) (fun _ => Hck) _ iter true W HP) as Er. cbn zeta in Ew, Er. fold hs in Ew, Er.
  set (pre' := heads_of true (run ops) hs ++ concat (map (body_of (run ops)) hs)) in *. rewrite Ew in Hw.
  assert (Hd : sha pre' = d) by congruence. assert (Hpre : pre' ++ [0] ++ sha pre' = pre ++ [0] ++ d) by congruence. rewrite Hd in Hpre.
  apply app_inv_tail in Hpre. rewrite <- Hpre. eexists. split; [exact Er|]. cbn [r_checksum r_props r_headers].
  split; [|split; [now rewrite Hd|split; [reflexivity|split; reflexivity]]].
  unfold gen_checksum. cbn [r_vers r_props r_headers].
  assert (Hid : files_sorted lower hs = hs) by (unfold hs, sorted_headers, files_sorted; apply sort_by_idem). rewrite Hid.
  assert (HN : NoDup (map (lname lower) hs)) by (eapply lnames_nodup; eauto).
  rewrite (files_by_name_written lower (fun _ => ck) (run ops) iter true) by (auto; try apply incl_refl; reflexivity). f_equal. f_equal.
  unfold pre', heads_of. rewrite write_props_prefix_first by apply W. rewrite <- !app_assoc. reflexivity.
Qed.
(** Whatever is stored as the checksum of what hemtt wrote, the listing is that of the files, and the checksum is warned of if it
    is not theirs. *)
Theorem C107_checksum : forall lower sha ops iter contents d ck, (forall x, length (sha x) = 20%nat) ->
  Forall plain_op ops -> Permutation iter (w_files (run ops)) -> unique_ignoring_case lower ops ->
  write lower sha iter true (run ops) = Ok (contents ++ [0] ++ d, d) -> length ck = 20%nat ->
  exists l, inspect lower sha (contents ++ [0] ++ ck) = Shows l /\ stored l = ck /\ actual l = d /\ (invalid l = true <-> ck <> d) /\
    sorted l = true /\ unsorted l = false /\ properties l = prefix_first (w_props (run ops)) /\ rows_of ops (rows l).
Proof.
  intros lower sha ops iter pre d ck Hs Hp HP Hu Hw Hck. destruct (altered lower sha ops iter pre d ck Hs Hp HP Hu Hw Hck) as (r & R & G & D & C & P & Hh).
  eexists. split; [unfold inspect; rewrite R, G; reflexivity|]. cbn [stored rows sorted unsorted invalid actual properties].
  assert (S : is_sorted lower r = true).
  { apply is_sorted_spec. rewrite Hh. unfold in_order, sorted_headers, files_sorted.
    pose proof (sort_by_sorted (lname lower) (map (fun e : bytes * (bytes * header) => snd (snd e)) iter)) as X. revert X. generalize (sort_by (lname lower) (map (fun e : bytes * (bytes * header) => snd (snd e)) iter)).
    clear. induction l as [|h l IH]; intros X; [constructor|]. inversion X as [|? ? A B]; subst. cbn [map]. constructor; [now apply IH|]. now apply Forall_map. }
  rewrite S. split; [exact C|]. split; [now symmetry|]. split.
  { rewrite C, <- D. destruct (eqb_bytes ck d) eqn:E; cbn [negb]; [apply eqb_bytes_spec in E; split; [discriminate|intros N; now elim N]|apply eqb_bytes_false in E; split; [now intros _|reflexivity]]. }
  split; [reflexivity|]. split; [reflexivity|]. split; [exact P|]. rewrite Hh. split.
  - rewrite map_map. cbn [filename]. eapply header_names_nodup; eauto.
  - intros n k s o t. rewrite in_map_iff. split.
    + intros (h & E & I). apply (headers_newest lower ops iter Hp HP) in I as (c & Nc & Nn & Eh). injection E as <- <- <- <- <-. split.
      * intros I. rewrite <- Nn in I. unfold norm in I. apply in_map_iff in I as (b & E & _). destruct (b =? 47) eqn:F; [discriminate|]. apply N.eqb_neq in F. contradiction.
      * exists c. split; [exact Nc|]. rewrite Eh. cbn. repeat split.
    + intros (NS & c & Nc & -> & -> & -> & ->). exists (header_for_file n (blen c)). split; [reflexivity|].
      apply (headers_newest lower ops iter Hp HP). exists c. cbn [h_name header_for_file]. split; [exact Nc|]. split; [|reflexivity].
      unfold norm. rewrite <- (map_id n) at 2. apply map_ext_in. intros b I. destruct (N.eqb_spec b 47) as [->|]; [contradiction|reflexivity].
Qed.
(** So an archive as it was written is listed without a warning. *)
Theorem C107_no_warning : forall lower sha ops iter out digest, (forall x, length (sha x) = 20%nat) ->
  Forall plain_op ops -> Permutation iter (w_files (run ops)) -> unique_ignoring_case lower ops -> write lower sha iter true (run ops) = Ok (out, digest) ->
  exists l, inspect lower sha out = Shows l /\ stored l = digest /\ actual l = digest /\ invalid l = false /\ sorted l = true /\ unsorted l = false /\
    properties l = prefix_first (w_props (run ops)) /\ rows_of ops (rows l).
Proof.
  intros lower sha ops iter out digest Hs Hp HP Hu Hw.
  assert (X : exists pre, out = pre ++ [0] ++ digest /\ digest = sha pre).
  { pose proof (write_spec lower sha _ iter true (plain_run ops Hp) HP) as Ew. cbn zeta in Ew. rewrite Ew in Hw. eexists. split; [|symmetry].
    - apply (f_equal (fun x => match x with Ok (a, b) => (a, b) | _ => ([], []) end)) in Hw. assert (A := f_equal fst Hw). assert (B := f_equal snd Hw). cbn [fst snd] in A, B. rewrite <- A, <- B. reflexivity.
    - apply (f_equal (fun x => match x with Ok (a, b) => b | _ => [] end)) in Hw. exact Hw. }
  destruct X as (pre & -> & D). destruct (C107_checksum lower sha ops iter pre digest digest Hs Hp HP Hu Hw) as (l & I & A & B & C & Rest); [rewrite D; apply Hs|].
  exists l. split; [exact I|]. split; [exact A|]. split; [exact B|]. split; [|exact Rest]. destruct (invalid l); [|reflexivity]. destruct C as (C & _). now elim (C eq_refl).
Qed.
(** And the checksum of one archive on the contents of another is warned of, unless SHA-1 gives both the same. *)
Theorem C107_exchanged : forall lower sha ops iter contents d ops' iter' contents' d', (forall x, length (sha x) = 20%nat) ->
  Forall plain_op ops -> Permutation iter (w_files (run ops)) -> unique_ignoring_case lower ops -> write lower sha iter true (run ops) = Ok (contents ++ [0] ++ d, d) ->
  Forall plain_op ops' -> Permutation iter' (w_files (run ops')) -> unique_ignoring_case lower ops' -> write lower sha iter' true (run ops') = Ok (contents' ++ [0] ++ d', d') ->
  contents <> contents' ->
  (exists l, inspect lower sha (contents' ++ [0] ++ d) = Shows l /\ invalid l = true) \/ sha contents = sha contents'.
Proof.
  intros lower sha ops iter pre d ops' iter' pre' d' Hs Hp HP Hu Hw Hp' HP' Hu' Hw' NE.
  assert (D : d = sha pre).
  { destruct (altered lower sha ops iter pre d (sha []) Hs Hp HP Hu Hw (Hs [])) as (_ & _ & _ & D & _). exact D. }
  destruct (altered lower sha ops' iter' pre' d' (sha []) Hs Hp' HP' Hu' Hw' (Hs [])) as (_ & _ & _ & D' & _).
  destruct (C107_checksum lower sha ops' iter' pre' d' d Hs Hp' HP' Hu' Hw') as (l & I & _ & _ & C & _); [rewrite D; apply Hs|].
  destruct (eqb_bytes d d') eqn:E.
  - right. apply eqb_bytes_spec in E. congruence.
  - left. exists l. split; [exact I|]. apply C. now apply eqb_bytes_false in E.
Qed.

(** ** Limits *)
(** An archive of another tool with a forward slash in a name panics: its file is looked for with a backslash, and there is none
    of that name. *)
Lemma file_go_none lower target hs l : (forall h, In h hs -> lower (h_name h) <> target) -> file_go lower target hs l = None.
Proof.
  revert l. induction hs as [|h hs IH]; intros l N; [reflexivity|]. cbn [file_go]. unfold lname. destruct (eqb_bytes (lower (h_name h)) target) eqn:E; [apply eqb_bytes_spec in E; elim (N h); [now left|exact E]|].
  apply IH. intros x I. apply N. now right.
Qed.
Lemma by_name_none lower r h hs : In h hs -> r_file lower (h_name h) r = None -> files_by_name lower r hs = None.
Proof.
  intros I N. induction hs as [|x hs IH]; [destruct I|]. cbn [files_by_name]. destruct I as [-> |I]; [now rewrite N|]. rewrite IH by exact I. now destruct (r_file lower (h_name x) r).
Qed.
Theorem C107_slash_refuted : forall lower sha input es term bodies sep ck h, archive input es term bodies sep ck -> Forall entry_fields_ok es -> raw_ok term ->
  In h (files_of es) -> (forall h', In h' (files_of es) -> lower (h_name h') <> lower (norm (h_name h))) -> inspect lower sha input = Panics.
Proof.
  intros lower sha input es term bodies sep ck h A F T I N. destruct (read_complete input es term bodies sep ck A F T) as (r & R & Hh & _).
  unfold inspect. rewrite R. unfold gen_checksum. rewrite (by_name_none lower r h); [reflexivity| |].
  - rewrite Hh. apply (Permutation_in _ (Permutation_sym (sort_by_perm _ _))). exact I.
  - unfold r_file. rewrite Hh. apply file_go_none. exact N.
Qed.
(** Of two files whose names differ in case only, the first is counted twice: the archive is warned of as it was written. *)
Definition sum_digest (x : bytes) : bytes := le_bytes 20 (fold_left N.add x 0).
Theorem C107_case_refuted : exists ops out digest l, Forall plain_op ops /\ write ascii_lower sum_digest (w_files (run ops)) true (run ops) = Ok (out, digest) /\
  inspect ascii_lower sum_digest out = Shows l /\ stored l = digest /\ invalid l = true.
Proof.
  exists [AddFile (bs "a") [1]; AddFile (bs "A") [2]].
  eexists. eexists. eexists. split. { repeat constructor; cbn; try reflexivity; try discriminate; unfold no_nul; cbn; intuition discriminate. }
  split; [vm_compute; reflexivity|]. split; [vm_compute; reflexivity|]. split; vm_compute; reflexivity.
Qed.
(** An archive meeting the hypotheses, with its listing. *)
Example list_example : Forall plain_op demo_ops /\ unique_ignoring_case ascii_lower demo_ops /\
  exists out digest l, write ascii_lower sum_digest (w_files (run demo_ops)) true (run demo_ops) = Ok (out, digest) /\ inspect ascii_lower sum_digest out = Shows l /\
    (2 <= length (rows l))%nat /\ invalid l = false.
Proof.
  split; [exact demo_plain|]. split; [exact (proj2 C05_example)|].
  eexists. eexists. eexists. split; [vm_compute; reflexivity|]. split; [vm_compute; reflexivity|]. split; [vm_compute; lia|vm_compute; reflexivity].
Qed.
Example slash_example : inspect ascii_lower sum_digest (Pbo.UnpackProps.an_archive [(bs "f/a.sqf", [1])]) = Panics.
Proof. vm_compute. reflexivity. Qed.

Print Assumptions C107_listing.
Print Assumptions C107_hex.
Print Assumptions C107_checksum.
Print Assumptions C107_no_warning.
Print Assumptions C107_exchanged.
Print Assumptions C107_slash_refuted.
Print Assumptions C107_case_refuted.
