(** Model of the language server's diagnostics of configs: hls/src/diag_manager.rs and hls/src/config/mod.rs.

    The server's tasks run at once; a turn of one of them is one action that others can see. A schedule says whose turn it is. *)
From Coq Require Import String.
From Verif Require Import Base.Tactics Base.Bytes Base.Sort Base.Ascii Base.Text.
Local Open Scope N_scope.
Local Open Scope list_scope.

(** [HashMap::insert] and [HashMap::remove], the newest entry first. *)
Definition put {A} (k : text) (a : A) (m : list (text * A)) : list (text * A) := (k, a) :: filter (fun x => negb (eqb_bytes (fst x) k)) m.
Definition drop_key {A} (k : text) (m : list (text * A)) : list (text * A) := filter (fun x => negb (eqb_bytes (fst x) k)) m.
Definition get {A} (k : text) (m : list (text * A)) : option A := match find (fun x => eqb_bytes (fst x) k) m with Some x => Some (snd x) | None => None end.

Section Server.
  Context {diag : Type}.
  (** What the files hold. *)
  Notation disk := (text -> text).
  (** config/mod.rs:52-117: reading, preprocessing, parsing and linting a config: the files it lists as its sources and the labels of
      what was found, each with its file. (After a failure of the preprocessor these are its [included_files].) *)
  Context (outcome : disk -> text -> list text * list (text * diag)).
  (** hls/src/workspace.rs:135-146 [to_url]. *)
  Context (to_url : text -> text).
  (** The orders in which hash maps and sets list what they hold. *)
  Context (order_entries : nat -> list (text * text * list diag) -> list (text * text * list diag)).
  Context (order_urls : nat -> list text -> list text).
  Context (order_files : nat -> list (text * list diag) -> list (text * list diag)).

  (** ** diag_manager.rs:66-70 [DiagWorker] *)
  Record worker := Worker { current : list (text * text * list diag); last_touched : list text }.
  Definition is_key (scope url : text) (e : text * text * list diag) : bool := (eqb_bytes (fst (fst e)) scope && eqb_bytes (snd (fst e)) url)%bool.
  (** diag_manager.rs:80-82. *)
  Definition set_current (scope url : text) (ds : list diag) (w : worker) : worker :=
    Worker ((scope, url, ds) :: filter (fun e => negb (is_key scope url e)) (current w)) (last_touched w).
  (** diag_manager.rs:84-86. *)
  Definition clear_current (scope : text) (w : worker) : worker :=
    Worker (filter (fun e => negb (eqb_bytes (fst (fst e)) scope)) (current w)) (last_touched w).
  (** [entry(k).or_insert_with(Vec::new).extend(l)]. *)
  Fixpoint extend (k : text) (l : list diag) (m : list (text * list diag)) : list (text * list diag) :=
    match m with
    | [] => [(k, l)]
    | (k', l') :: m' => if eqb_bytes k' k then (k', l' ++ l) :: m' else (k', l') :: extend k l m'
    end.
  (** diag_manager.rs:95-102. *)
  Definition by_file (es : list (text * text * list diag)) : list (text * list diag) := fold_left (fun m e => extend (snd (fst e)) (snd e) m) es [].
  (** diag_manager.rs:88-122 [sync]: the messages that the spawned task will send. Simplified: the map and the set are looked at and
      replaced in one go. *)
  Definition sync (n : nat) (w : worker) : worker * list (text * list diag) :=
    let files := by_file (order_entries n (current w)) in
    (Worker (current w) (map fst files), map (fun u => (u, [])) (order_urls n (last_touched w)) ++ order_files n files).

  (** ** config/mod.rs:45-138 [check_addon], one action after the other *)
  Inductive action :=
  | Clear
  | Read
  | Put (url : text) (ds : list diag)
  | Sync
  | Cache (sources : list text).
  (** config/mod.rs:50, 120: the scope of a config. *)
  Definition scope_of (config : text) : text := bs "config:" ++ config.
  (** config/mod.rs:51, 57-115: labels by file. *)
  Definition by_label (l : list (text * diag)) : list (text * list diag) := fold_left (fun m x => extend (fst x) [snd x] m) l [].
  (** config/mod.rs:118-125. *)
  Definition puts (n : nat) (l : list (text * diag)) : list action := map (fun x => Put (to_url (fst x)) (snd x)) (order_files n (by_label l)).

  (** The server and the editor: files, [ConfigCache], the worker, running checks, tasks that publish, and what the editor shows. *)
  Record state := State { files : disk; cache : list (text * list text); work : worker; jobs : list (text * list action); tasks : list (list (text * list diag)); view : text -> list diag }.

  Definition start_job (config : text) : text * list action := (config, [Clear; Read]).
  (** One action of the check of [config]. Simplified: the files are read in one go. *)
  Definition perform (n : nat) (config : text) (a : action) (rest : list action) (s : state) : list action * state :=
    match a with
    | Clear => (rest, State (files s) (cache s) (clear_current (scope_of config) (work s)) (jobs s) (tasks s) (view s))
    | Read => let (sources, found) := outcome (files s) config in (puts n found ++ [Sync; Cache sources], s)
    | Put u ds => (rest, State (files s) (cache s) (set_current (scope_of config) u ds (work s)) (jobs s) (tasks s) (view s))
    | Sync => let (w, ms) := sync n (work s) in (rest, State (files s) (cache s) w (jobs s) (tasks s ++ [ms]) (view s))
    | Cache sources =>
        (rest, State (files s) (match sources with [] => drop_key config (cache s) | _ => put config sources (cache s) end) (work s) (jobs s) (tasks s) (view s))
    end.
  Fixpoint replace_at {A} (i : nat) (l : list A) (a : list A) : list A :=
    match i, l with
    | O, _ :: l' => a ++ l'
    | S i', x :: l' => x :: replace_at i' l' a
    | _, [] => []
    end.

  (** Turns: the editor writes a file; it tells the server that it did (config/mod.rs:144-171 [did_save]); a check goes on; a task sends
      its next message (diag_manager.rs:107-121). *)
  Inductive turn := Write (file content : text) | Saved (file : text) | Check (i n : nat) | Publish (i : nat).
  Definition with_jobs (j : list (text * list action)) (s : state) : state := State (files s) (cache s) (work s) j (tasks s) (view s).
  Definition step (t : turn) (s : state) : state :=
    match t with
    | Write f x => State (fun g => if eqb_bytes g f then x else files s g) (cache s) (work s) (jobs s) (tasks s) (view s)
    | Saved f =>
        with_jobs (jobs s ++ map (fun x => start_job (fst x)) (filter (fun x => existsb (eqb_bytes f) (snd x)) (cache s))) s
    | Check i n =>
        match nth_error (jobs s) i with
        | Some (c, a :: rest) =>
            let (rest', s') := perform n c a rest s in
            with_jobs (replace_at i (jobs s) (match rest' with [] => [] | _ => [(c, rest')] end)) s'
        | _ => s
        end
    | Publish i =>
        match nth_error (tasks s) i with
        | Some ((u, ds) :: ms) =>
            State (files s) (cache s) (work s) (jobs s) (replace_at i (tasks s) [ms]) (fun x => if eqb_bytes x u then ds else view s x)
        | Some [] => State (files s) (cache s) (work s) (jobs s) (replace_at i (tasks s) []) (view s)
        | None => s
        end
    end.
  Definition run (l : list turn) (s : state) : state := fold_left (fun s t => step t s) l s.

  (** config/mod.rs:34-43, 140-142: a workspace is added: its configs are checked. Simplified: one check need not wait for the one before,
      so more schedules are covered. *)
  Definition start (d : disk) (addons : list text) : state := State d [] (Worker [] []) (map start_job addons) [] (fun _ => []).
End Server.
Arguments state : clear implicits.
Arguments worker : clear implicits.
Arguments action : clear implicits.
