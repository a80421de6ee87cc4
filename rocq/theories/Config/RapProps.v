(** C12 and C13: rapified configs. *)
From Coq Require Import String.
From Verif Require Import Base.Tactics Base.Bytes Base.Ascii Io.Spec Config.RapModel Config.RapTree Config.RapProofs Config.RapReads.
From Verif Require Config.RapSpec.
Import RapSpec (rap_file).
Local Open Scope N_scope.

(** C12. A storable config tree (no NUL in strings and names, integers in range) without error nodes whose
    encoding is shorter than 4 GiB is written as a raP file that describes that tree, with its
    class bodies laid out back to back, and a reader that follows the stored offsets, whatever they are,
    can read no other tree from it. *)
Theorem C12_rapify_decodes :
  forall c es, tree c = Some es -> config_ok c ->
  (forall n, config_len c = Ok n -> n < 2 ^ 32) ->
  exists f, config_rapify c = Ok (f, blen f) /\
    rap_file true f es /\
    (forall es', rap_file false f es' -> es' = es).
Proof.
  intros c es Ht Hok Hn. destruct (config_good c es Ht) as [Hl Hr]. specialize (Hn _ Hl).
  exists (enc_config c). split; [exact Hr|].
  pose proof (config_reads c es Ht Hok Hn) as H. split; [exact H|].
  intros es' H'. exact (rap_file_det _ _ _ _ _ H' H).
Qed.
Print Assumptions C12_rapify_decodes.

(** Consequence: two configs with the same file say the same. *)
Theorem C12_rapify_injective :
  forall c c' f n n' es es', tree c = Some es -> tree c' = Some es' -> config_ok c -> config_ok c' -> n < 2 ^ 32 -> n' < 2 ^ 32 ->
  config_rapify c = Ok (f, n) -> config_rapify c' = Ok (f, n') -> es = es'.
Proof.
  intros c c' f n n' es es' Ht Ht' Hok Hok' Hn Hn' H H'.
  destruct (config_good c es Ht) as [_ Hr]. destruct (config_good c' es' Ht') as [_ Hr'].
  rewrite Hr in H. rewrite Hr' in H'. assert (E : f = enc_config c /\ n = blen f) by (split; congruence).
  assert (E' : f = enc_config c' /\ n' = blen f) by (split; congruence).
  destruct E as [E1 ->], E' as [E1' ->].
  pose proof (config_reads c es Ht Hok) as R. pose proof (config_reads c' es' Ht' Hok') as R'.
  rewrite <- E1 in R. rewrite <- E1' in R'. exact (rap_file_det _ _ _ _ _ (R Hn) (R' Hn')).
Qed.
Print Assumptions C12_rapify_injective.

(** The hypothesis on NUL is needed: the names "a" followed by NUL and "a" have one and the same end in the file,
    and a string with a NUL is not what a reader sees. *)
Definition nul_config : config := [Entry (bs "a") (VStr [104; 0]) false].
Theorem C12_nul_string_refuted :
  exists c es f, tree c = Some es /\ config_rapify c = Ok (f, blen f) /\ ~ rap_file false f es.
Proof.
  exists nul_config, [RapSpec.RValue (bs "a") (RapSpec.RStr [104; 0])], (enc_config nul_config).
  split; [reflexivity|]. split; [exact (proj2 (config_good nul_config _ eq_refl))|].
  intros [i1 i2 i3 i4 en fin _ _ _ _ _ Hc _]. inversion Hc as [o pa s e f i5 i6 i7 r cu _ _ _ _ He _ _]; subst.
  inversion He; subst. match goal with H : RapSpec.scalar _ (RapSpec.RStr [104; 0]) _ _ |- _ => inversion H; subst end.
  match goal with H : RapSpec.cstr [104; 0] _ _ |- _ => destruct H as [Hn _] end.
  apply Hn. right. left. reflexivity.
Qed.
Print Assumptions C12_nul_string_refuted.

(** C13. For every config tree without error nodes, of any size and with any strings, writing succeeds
    (no assertion fires, no buffer overruns), the number of bytes is the one announced by [rapified_length] and
    the one returned; a tree with an error node panics before a byte is written. That the stored class
    offsets are the positions of the bodies is the [tight] part of C12. *)
Theorem C13_lengths_exact :
  forall c, tree c <> None ->
  exists f, config_rapify c = Ok (f, blen f) /\ config_len c = Ok (blen f).
Proof.
  intros c H. destruct (tree c) as [es|] eqn:E; [|contradiction].
  destruct (config_good c es E) as [Hl Hr]. exists (enc_config c). auto.
Qed.
Print Assumptions C13_lengths_exact.

(** The same for every class at every offset. *)
Theorem C13_class_lengths_exact :
  forall name parent ps m off, tree_props ps <> None ->
  exists b, class_rapify (Local name parent ps m) off = Ok (b, blen b) /\ class_len (Local name parent ps m) = Ok (blen b).
Proof.
  intros name parent ps m off H. destruct (tree_props ps) as [es|] eqn:E; [|contradiction].
  destruct (class_good_all (Local name parent ps m) es E off) as [Hl Hr]. eauto.
Qed.
Print Assumptions C13_class_lengths_exact.

Theorem C13_error_nodes_panic : forall c, tree c = None -> config_rapify c = Panic.
Proof. exact error_panics. Qed.
Print Assumptions C13_error_nodes_panic.

(** A config with nesting, inheritance, every kind of entry and a negative integer. *)
Definition demo : config :=
  [ PClass (External (bs "Base"));
    PClass (Local (bs "CfgA") (Some (bs "Base"))
      [ Entry (bs "n") (VNum (Int32 (-5))) false;
        PClass (Local (bs "In") None [Entry (bs "s") (VStr (bs "hi")) false; Delete (bs "x")] false);
        Entry (bs "a") (VArr true [INum (Float32 1065353216); IArr [IStr (bs "q"); INum (Int64 5000000000)]]) false;
        PClass (Local (bs "In2") (Some (bs "In")) [] true) ] false);
    Entry (bs "e") (VExpr (bs "1+1")) false ].

Example C12_demo_applies :
  tree demo <> None /\ config_ok demo /\ (forall n, config_len demo = Ok n -> n < 2 ^ 32) /\
  exists f, config_rapify demo = Ok (f, blen f) /\ (* class "CfgA" is stored as code 0, name, offset 46 *)
    firstn 24 (skipn 18 f) = [3; 66; 97; 115; 101; 0; 0; 67; 102; 103; 65; 0; 46; 0; 0; 0; 1; 4; 101; 0; 49; 43; 49; 0].
Proof.
  split; [discriminate|]. split.
  { assert (N : forall l : bytes, forallb (fun b => negb (b =? 0)) l = true -> no_nul l).
    { intros l H Hi. rewrite forallb_forall in H. specialize (H _ Hi). discriminate. }
    unfold config_ok, demo. cbn [class_ok prop_ok fold_right value_ok item_ok num_ok].
    repeat match goal with
    | |- _ /\ _ => split
    | |- True => exact I
    | |- no_nul _ => apply N; reflexivity
    | |- forall p, Some _ = Some p -> _ => let E := fresh in intros p E; apply Some_inj in E; subst p; split; [apply N; reflexivity|discriminate]
    | |- forall p, None = Some p -> _ => discriminate
    | |- _ => lia
    end. }
  split; [intros n H; vm_compute in H; injection H as <-; reflexivity|].
  exists (enc_config demo). split; [exact (proj2 (config_good demo _ eq_refl))|]. vm_compute. reflexivity.
Qed.
