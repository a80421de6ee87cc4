(** C29: SQFC files. *)
From Coq Require Import String.
From Verif Require Import Base.Tactics Base.Bytes Base.Ascii Base.Text Io.Spec Preproc.Model Preproc.LexModel Workspace.ProcessedModel
  Sqf.Ast Sqf.CompileModel Sqf.CompileSpec Sqf.CompileProofs Sqf.CompileProps Sqf.SerializeModel Sqf.SerializeSpec Sqf.SerializeProofs Sqf.TypedProofs.
Local Open Scope N_scope.
Local Open Scope list_scope.

(** Every script that can be written is read back, but for the mark of a shared array. *)
Theorem C29_file_determines_script : forall c b, typed_script c -> serialize c = Wrote b -> read_sqfc b = Some (as_written c).
Proof. exact serialize_reads. Qed.
Theorem C29_files_differ : forall c c' b, typed_script c -> typed_script c' -> serialize c = Wrote b -> serialize c' = Wrote b -> as_written c = as_written c'.
Proof. intros c c' b H H' E E'. apply Some_inj. now rewrite <- (serialize_reads c b H E), <- (serialize_reads c' b H' E'). Qed.

(** From the syntax tree to the file and back: the script read from the file is the program. *)
Theorem C29_compiled_file_is_the_program : forall p virtual s c b,
  byte_len (o_text p) < 2 ^ 31 -> source s = o_text p -> is_text (o_text p) -> Forall typed_stmt (content s) ->
  (forall f, In f (sources p) -> is_text (virtual (fst f))) ->
  compile p virtual s = Ok c -> serialize c = Wrote b ->
  exists c', read_sqfc b = Some c' /\ load c' = Some (VCode (o_text p) (meaning p virtual (content s))).
Proof.
  intros p virtual s c b Sm Hs Ht Hc Hv E W. assert (T : typed_script c) by (eapply script_typed; eauto; now rewrite Hs).
  exists (as_written c). split; [now apply serialize_reads|]. rewrite load_as_written. apply C27_compiled_script_loads; auto; [lia|].
  (* a pool that was written has fewer than 2^16 constants *)
  unfold serialize in W. destruct (also_inv _ _ _ W) as (b1 & r1 & _ & W1 & _). destruct (also_inv _ _ _ W1) as (b2 & r2 & _ & W2 & _).
  destruct (also_inv _ _ _ W2) as (b3 & r3 & _ & W3 & _). destruct (also_inv _ _ _ W3) as (b4 & r4 & W4 & _).
  unfold ser_compressed, andthen, ser_list in W4. destruct (N.ltb_spec (N.of_nat (length (constants c))) (2 ^ 16)); [lia|discriminate].
Qed.
(** Writing a compiled script fails only because something is too large: never over an index, and the compressor never
    fails. *)
Theorem C29_only_size_fails : forall p virtual s c e,
  byte_len (o_text p) < 2 ^ 31 -> source s = o_text p -> is_text (o_text p) -> Forall typed_stmt (content s) ->
  (forall f, In f (sources p) -> is_text (virtual (fst f))) ->
  compile p virtual s = Ok c -> serialize c = SerFail e -> too_large e.
Proof.
  intros p virtual s c e Sm Hs Ht Hc Hv E. apply serialize_fail; [eapply script_typed; eauto; now rewrite Hs|].
  apply Forall_forall. intros k Hk. apply Forall_forall. intros is His. destruct (In_nth_error _ _ Hk) as [i Hi].
  pose proof (C28_indices_in_range p virtual s c ltac:(lia) Hs E i k is Hi His) as R. assert (i < length (constants c))%nat as L by (apply nth_error_Some; congruence).
  eapply Forall_impl; [|exact R]. intros []; cbn [in_range indexed]; unfold name_in_range; try tauto. lia.
Qed.

(** A length of 2^31 bytes is written as 0. *)
Theorem C29_long_block_refuted : ser_pointer (PSource 0 (2 ^ 31)) = ser_pointer (PSource 0 0).
Proof. reflexivity. Qed.
(** The code's own reader of code pointers takes the offset for an index. *)
Theorem C29_own_reader_refuted : des_pointer (ser_pointer (PSource 9 1)) = Some (PConstant 9, [1; 0; 0; 128]).
Proof. reflexivity. Qed.

(** ** The script of [CompileProps] *)
Definition script1c : compiled := match compile proc1 (fun x => x) script1 with Ok c => c | _ => Compiled 0 [] [] [] end.
Lemma ascii_text s : forallb (fun c => c <? 128) s = true -> is_text s.
Proof. rewrite forallb_forall. intro H. apply Forall_forall. intros c Hc. apply H in Hc. apply N.ltb_lt in Hc. left. lia. Qed.
Example C29_ex_typed : Forall typed_stmt (content script1).
Proof. repeat (constructor || (apply ascii_text; vm_compute; reflexivity) || reflexivity). Qed.
Example C29_ex : exists b c', serialize script1c = Wrote b /\ blen b = 209 /\ read_sqfc b = Some c' /\
  load c' = Some (VCode src1 (meaning proc1 (fun x => x) (content script1))).
Proof.
  destruct (serialize script1c) as [b|e] eqn:E; [|exfalso; vm_compute in E; discriminate].
  destruct (C29_compiled_file_is_the_program proc1 (fun x => x) script1 script1c b) as (c' & R & L); try reflexivity; auto using C29_ex_typed.
  - apply ascii_text. vm_compute. reflexivity.
  - intros f Hf. vm_compute in Hf. destruct Hf as [<-|[]]. apply ascii_text. vm_compute. reflexivity.
  - exists b, c'. repeat split; auto. vm_compute in E. injection E as <-. reflexivity.
Qed.

Print Assumptions C29_file_determines_script.
Print Assumptions C29_files_differ.
Print Assumptions C29_compiled_file_is_the_program.
Print Assumptions C29_only_size_fails.
Print Assumptions C29_long_block_refuted.
Print Assumptions C29_own_reader_refuted.
