(** C03-C08: PBO archives. *)
From Coq Require Import String.
From Verif Require Import Base.Tactics Base.Bytes Base.Sort Base.Ascii Io.Model Io.Spec
  Pbo.Model Pbo.Spec Pbo.Proofs Pbo.Roundtrip Pbo.History Pbo.Foreign Pbo.Final.
Local Open Scope N_scope.

(** C03. Any archive built by API calls (non-empty NUL-free names and keys), written in any hash-map
    iteration order [iter], opens again; its properties are the last values in insertion order with the
    prefix first; its headers are exactly one per stored path, in case-insensitive order, carrying the
    content's length; each file opened by name (any separator spelling) yields the last content added,
    provided no other stored path equals it ignoring case; a name matching nothing yields nothing. *)
Theorem C03_written_archive_reads_back :
  forall (lower sha : bytes -> bytes) ops iter properties,
  (forall x, length (sha x) = 20%nat) ->
  Forall plain_op ops -> Permutation iter (w_files (run ops)) ->
  exists out digest r,
    write lower sha iter properties (run ops) = Ok (out, digest) /\ read out = Ok r /\ r_checksum r = digest /\
    r_props r = (if properties then prefix_first (w_props (run ops)) else []) /\
    StronglySorted (fun x y => cmp_bytes (lower (h_name x)) (lower (h_name y)) <> Gt) (r_headers r) /\
    NoDup (map h_name (r_headers r)) /\
    (forall h, In h (r_headers r) <->
       exists c, newest_file (h_name h) ops c /\ norm (h_name h) = h_name h /\
                 h = header_for_file (h_name h) (blen c)) /\
    (forall name c, newest_file name ops c ->
       (forall n' c', newest_file n' ops c' -> lower (norm n') = lower (norm name) -> same_path n' name) ->
       r_file lower name r = Some c) /\
    (forall name, (forall n' c', newest_file n' ops c' -> lower (norm n') <> lower (norm name)) ->
       r_file lower name r = None).
Proof. intros lower sha ops iter b Hsha Hp HP. exact (written_and_read lower sha Hsha ops iter b Hp HP). Qed.
Print Assumptions C03_written_archive_reads_back.

(** C04. The trailing 20 bytes are the digest of everything before the separator byte, which is also the
    value [write] returns - for every archive, also ones with custom headers. *)
Theorem C04_checksum_covers_output :
  forall lower sha w iter properties out digest,
  write lower sha iter properties w = Ok (out, digest) ->
  exists pre, out = pre ++ [0] ++ digest /\ digest = sha pre.
Proof.
  intros lower sha w iter b out digest H. unfold write in H.
  destruct (write_bodies w _) as [bodies|]; [|discriminate].
  match type of H with Ok (?h ++ _, _) = _ => exists (h ++ bodies) end.
  split; [rewrite <- app_assoc|]; congruence.
Qed.
Print Assumptions C04_checksum_covers_output.

(** Recomputing the checksum of an opened archive gives the stored value when it was written with
    properties; without them a different byte string (one zero byte more) is hashed. *)
Theorem C04_recomputed_checksum :
  forall lower sha ops iter (properties : bool) out digest r,
  (forall x, length (sha x) = 20%nat) ->
  Forall plain_op ops -> Permutation iter (w_files (run ops)) -> unique_ignoring_case lower ops ->
  write lower sha iter properties (run ops) = Ok (out, digest) -> read out = Ok r ->
  exists pre, digest = sha pre /\ out = pre ++ [0] ++ digest /\
    gen_checksum lower sha r = Ok (sha (if properties then pre else 0 :: pre)).
Proof.
  intros lower sha ops iter b out digest r Hs Hp HP Hu Hw Hr.
  exact (gen_checksum_written lower sha Hs ops iter b out digest r Hp HP Hu Hw Hr).
Qed.
Print Assumptions C04_recomputed_checksum.

(** A stand-in digest that only depends on the length. *)
Definition len_digest (x : bytes) : bytes := le_bytes 20 (blen x).

Theorem C04_recomputed_without_properties_refuted :
  exists ops iter out digest r,
    Forall plain_op ops /\ Permutation iter (w_files (run ops)) /\
    write ascii_lower len_digest iter false (run ops) = Ok (out, digest) /\ read out = Ok r /\
    r_checksum r = digest /\ gen_checksum ascii_lower len_digest r <> Ok digest.
Proof.
  exists [AddFile (bs "a.txt") [1; 2; 3]]. eexists. eexists. eexists. eexists.
  split. { repeat constructor; cbn; try reflexivity; try discriminate. unfold no_nul. cbn. intuition discriminate. }
  split; [apply Permutation_refl|]. split; [vm_compute; reflexivity|]. split; [vm_compute; reflexivity|].
  split; [reflexivity|]. vm_compute. discriminate.
Qed.
Print Assumptions C04_recomputed_without_properties_refuted.

(** C05. Two histories with the same files and the same property list give byte-identical archives in any
    two iteration orders, if no two stored paths are equal ignoring case. *)
Theorem C05_output_independent_of_order :
  forall lower sha ops1 ops2 iter1 iter2 properties,
  Forall plain_op ops1 -> Forall plain_op ops2 ->
  (forall n c, newest_file n ops1 c <-> newest_file n ops2 c) ->
  w_props (run ops1) = w_props (run ops2) ->
  Permutation iter1 (w_files (run ops1)) -> Permutation iter2 (w_files (run ops2)) ->
  unique_ignoring_case lower ops1 ->
  write lower sha iter1 properties (run ops1) = write lower sha iter2 properties (run ops2).
Proof. intros. now apply write_deterministic. Qed.
Print Assumptions C05_output_independent_of_order.

Theorem C05_case_variants_refuted :
  exists ops iter1 iter2,
    Forall plain_op ops /\ Permutation iter1 (w_files (run ops)) /\ Permutation iter2 (w_files (run ops)) /\
    write ascii_lower len_digest iter1 true (run ops) <> write ascii_lower len_digest iter2 true (run ops).
Proof.
  exists [AddFile (bs "a") [1]; AddFile (bs "A") [2]].
  exists (w_files (run [AddFile (bs "a") [1]; AddFile (bs "A") [2]])).
  exists (rev (w_files (run [AddFile (bs "a") [1]; AddFile (bs "A") [2]]))).
  split. { repeat constructor; cbn; try reflexivity; try discriminate; unfold no_nul; cbn; intuition discriminate. }
  split; [apply Permutation_refl|]. split; [symmetry; apply Permutation_rev|].
  vm_compute. discriminate.
Qed.
Print Assumptions C05_case_variants_refuted.

(** C07. Whatever bytes are offered: if they open, they are exactly a header table, one body per file of
    the recorded length, a separator byte and a 20 byte checksum, and nothing else. *)
Theorem C07_accepted_input_is_an_archive :
  forall input r, is_bytes input -> read input = Ok r ->
  exists es term bodies sep,
    archive input es term bodies sep (r_checksum r) /\ r_headers r = files_of es.
Proof.
  intros input r Hb H. destruct (read_inv input r Hb H) as (es & term & bodies & sep & Ha & Hh & _).
  exact (ex_intro _ es (ex_intro _ term (ex_intro _ bodies (ex_intro _ sep (conj Ha Hh))))).
Qed.
Print Assumptions C07_accepted_input_is_an_archive.

(** ... and conversely every such byte string opens, with those headers and that checksum. *)
Theorem C07_archives_are_accepted :
  forall input es term bodies sep ck,
  archive input es term bodies sep ck -> Forall entry_fields_ok es -> raw_ok term ->
  exists r, read input = Ok r /\ r_headers r = files_of es /\ r_checksum r = ck.
Proof. exact read_complete. Qed.
Print Assumptions C07_archives_are_accepted.

(** Opening always terminates with a result or a documented error. *)
Theorem C07_reader_total : forall input, read input <> Err EOutOfFuel.
Proof. exact read_no_fuel. Qed.
Print Assumptions C07_reader_total.

(** C06. In an accepted archive whose table strings are valid UTF-8, [file] returns the body belonging to
    the first header that matches ignoring case, [file_offset] its position, and nothing otherwise. *)
Theorem C06_file_returns_its_own_bytes :
  forall lower input r, is_bytes input -> read input = Ok r ->
  exists es term bodies sep,
    archive input es term bodies sep (r_checksum r) /\ r_headers r = files_of es /\
    (table_clean es term ->
     forall name,
       (forall i h, nth_error (r_headers r) i = Some h -> lower (h_name h) = lower (norm name) ->
          (forall j h', (j < i)%nat -> nth_error (r_headers r) j = Some h' -> lower (h_name h') <> lower (norm name)) ->
          exists body, nth_error bodies i = Some body /\ r_file lower name r = Some body /\
            file_offset lower name r = Some (blen (table_bytes es term) + total_size (firstn i (r_headers r)))) /\
       ((forall h, In h (r_headers r) -> lower (h_name h) <> lower (norm name)) -> r_file lower name r = None)).
Proof.
  intros lower input r Hb H. destruct (read_inv input r Hb H) as (es & term & bodies & sep & Ha & Hh & Hi & Hbl).
  exists es, term, bodies, sep. split; [exact Ha|]. split; [exact Hh|]. intros Hc name.
  rewrite clean_len in Hbl by (destruct Ha as (_ & _ & _ & ? & ?); auto).
  pose proof (foreign_file lower input r es term bodies sep Ha Hh Hi Hbl name) as Hf.
  assert (Hlen : length bodies = length (r_headers r)).
  { destruct Ha as (_ & Hm & _). apply (f_equal (@length N)) in Hm. rewrite !map_length in Hm. now rewrite Hh. }
  split.
  - intros i h Hn Hl Hj. destruct (nth_error bodies i) as [body|] eqn:Eb.
    + exists body. split; [reflexivity|]. split.
      * rewrite Hf. eapply first_match_nth; eauto.
      * unfold file_offset. rewrite Hbl. eapply offset_go_spec; eauto.
    + exfalso. apply nth_error_None in Eb. rewrite Hlen in Eb.
      assert (i < length (r_headers r))%nat by (apply nth_error_Some; congruence). lia.
  - intro Hno. rewrite Hf. now apply first_match_none.
Qed.
Print Assumptions C06_file_returns_its_own_bytes.

(** An archive with one property whose value is the single byte 0xFF (not UTF-8) and one file with content
    [7; 8; 9]: the value is read as empty, the body offset is one short, and the file reads wrong. *)
Definition bad_property_archive : bytes :=
  write_header header_property ++ bs "k" ++ [0] ++ [255] ++ [0] ++ [0]
  ++ write_header (header_for_file (bs "f") 3) ++ write_header header_default
  ++ [7; 8; 9] ++ [0] ++ repeat 1 20.

Theorem C06_invalid_property_value_refuted :
  exists input r, is_bytes input /\ read input = Ok r /\
    map h_name (r_headers r) = [bs "f"] /\
    (exists table, input = table ++ [7; 8; 9] ++ [0] ++ r_checksum r) /\
    r_file ascii_lower (bs "f") r = Some [0; 7; 8].
Proof.
  exists bad_property_archive. eexists. split; [apply is_bytesb_spec; reflexivity|].
  split; [vm_compute; reflexivity|]. split; [reflexivity|]. split; [|vm_compute; reflexivity].
  exists (write_header header_property ++ bs "k" ++ [0] ++ [255] ++ [0] ++ [0]
  ++ write_header (header_for_file (bs "f") 3) ++ write_header header_default). vm_compute. reflexivity.
Qed.
Print Assumptions C06_invalid_property_value_refuted.

(** A file shadowed by an earlier case variant cannot be opened: its own name yields the other's bytes. *)
Theorem C06_case_variant_shadowed_refuted :
  exists ops out digest r,
    Forall plain_op ops /\ newest_file (bs "A") ops [2] /\
    write ascii_lower len_digest (w_files (run ops)) true (run ops) = Ok (out, digest) /\
    read out = Ok r /\ r_file ascii_lower (bs "A") r = Some [1].
Proof.
  exists [AddFile (bs "a") [1]; AddFile (bs "A") [2]]. eexists. eexists. eexists.
  split. { repeat constructor; cbn; try reflexivity; try discriminate; unfold no_nul; cbn; intuition discriminate. }
  split. { apply file_history. vm_compute. reflexivity. }
  split; [vm_compute; reflexivity|]. split; vm_compute; reflexivity.
Qed.
Print Assumptions C06_case_variant_shadowed_refuted.

(** C08. After any history of calls, looking up a path gives exactly the newest accepted content for it
    (separators interchangeable), and a property exactly its newest value without outer backslashes. *)
Theorem C08_archive_is_a_map :
  forall ops,
  (forall name c, w_file name (run ops) = Some c <-> newest_file name ops c) /\
  (forall key v, w_property key (run ops) = Some v <-> newest_property key ops v).
Proof. intro ops. exact (conj (fun n c => file_history ops n c) (fun k v => property_history ops k v)). Qed.
Print Assumptions C08_archive_is_a_map.

(** ** The hypotheses are met by a non-trivial archive. *)
Definition demo_ops : list op :=
  [AddProperty (bs "hemtt") (bs "1.0"); AddFile (bs "functions/fnc_init.sqf") [104; 105];
   AddFile (bs "config.bin") [0; 114; 97; 80]; AddProperty (bs "prefix") (bs "\x\abe\addons\main\");
   AddFile (bs "functions\fnc_init.sqf") [104; 111]; AddProperty (bs "tmp") (bs "x"); RemoveProperty (bs "tmp")].

Lemma demo_plain : Forall plain_op demo_ops.
Proof. repeat constructor; cbn; try reflexivity; try discriminate; unfold no_nul; cbn; intuition discriminate. Qed.

Example C03_example :
  Forall plain_op demo_ops /\
  exists out digest r,
    write ascii_lower len_digest (rev (w_files (run demo_ops))) true (run demo_ops) = Ok (out, digest) /\
    read out = Ok r /\ map h_name (r_headers r) = [bs "config.bin"; bs "functions\fnc_init.sqf"] /\
    r_props r = [(bs "prefix", bs "x\abe\addons\main"); (bs "hemtt", bs "1.0")] /\
    r_file ascii_lower (bs "Functions/FNC_init.sqf") r = Some [104; 111] /\
    gen_checksum ascii_lower len_digest r = Ok digest.
Proof.
  split; [exact demo_plain|]. eexists. eexists. eexists.
  split; [vm_compute; reflexivity|]. split; [vm_compute; reflexivity|].
  split; [vm_compute; reflexivity|]. split; [vm_compute; reflexivity|]. split; vm_compute; reflexivity.
Qed.

Example C05_example :
  (forall n c, newest_file n demo_ops c <-> newest_file n (rev demo_ops ++ demo_ops) c) /\
  unique_ignoring_case ascii_lower demo_ops.
Proof.
  split.
  - intros n c. rewrite <- !file_history.
    replace (w_file n (run (rev demo_ops ++ demo_ops))) with (w_file n (run demo_ops)); [reflexivity|].
    unfold w_file. replace (w_files (run (rev demo_ops ++ demo_ops))) with (w_files (run demo_ops)) by (vm_compute; reflexivity).
    reflexivity.
  - intros n1 c1 n2 c2 H1 H2 E. apply file_history in H1, H2. apply same_path_norm.
    unfold w_file in H1, H2.
    assert (K : forall k c, match im_get k (w_files (run demo_ops)) with Some (c0, _) => Some c0 | None => None end = Some c ->
       k = bs "functions\fnc_init.sqf" \/ k = bs "config.bin").
    { intros k c H. destruct (im_get k (w_files (run demo_ops))) as [[c0 h]|] eqn:Eg; [|discriminate].
      apply im_get_in in Eg. vm_compute in Eg. destruct Eg as [Eg|[Eg|[]]]; injection Eg as <- _ _; auto. }
    apply K in H1, H2. clear K.
    destruct H1 as [K1|K1]; destruct H2 as [K2|K2]; rewrite K1, K2 in *; auto; vm_compute in E; discriminate.
Qed.

Example C07_example : exists r, is_bytes bad_property_archive /\ read bad_property_archive = Ok r.
Proof. eexists. split; [apply is_bytesb_spec; reflexivity|vm_compute; reflexivity]. Qed.
