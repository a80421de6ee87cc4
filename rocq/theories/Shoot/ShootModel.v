(** Model of the photoshoot command while the game runs: bin/src/commands/photoshoot/mod.rs (the action), bin/src/controller/mod.rs
    (the loop that talks to the game), arma/src/lib.rs and arma/src/photoshoot.rs (the extension inside the game) and
    bin/dist/profile/autotest/photoshoot.VR (the mission).

    Three programs run at once: HEMTT, the extension's thread and the game's scripts. HEMTT and the extension talk over a local
    socket, the extension and the scripts over a queue and callbacks. One turn of an actor is one action that others can see. *)
From Coq Require Import String.
From Verif Require Import Base.Tactics Base.Bytes Base.Sort Base.Ascii Base.Text.
Local Open Scope N_scope.
Local Open Scope list_scope.

(** ** Messages: libs/common/src/arma/control.rs:3-25 [toarma], :27-56 [fromarma] *)
Inductive to_game := Exit | Weapon (class : text) | Preview (class : text) | PreviewRun | Done.
(** The level of a log line is dropped. *)
Inductive to_hemtt := Mission (path : text) | Log (line : text) | Ready | Shot (class : text) | Previews.

(** ** State *)
(** Why HEMTT stopped without the game's leave: a message was there in part only (mod.rs:103 [expect]), it did not parse (:105),
    no action has the current mission (:134 [expect]), a class was never asked for, or has no image (photoshoot/mod.rs:202, 208,
    239), or the socket was closed while it was written to ([send], :187-191 [unwrap]). *)
Inductive reason := Torn | Unreadable | NoAction | UnknownClass | NoImage | Closed.
(** Where the loop of controller/mod.rs:88-143 stands: at its top; after the length of a message was read; with the writes that
    are left of the messages being sent; left, since the game is gone; stopped. *)
Inductive hemtt_at := Polling | Reading (n : N) | Writing (ws : list bytes) | Gone | Dead (r : reason).
(** [pending] is the vector of photoshoot/mod.rs:130 with its end first; [sent]: all messages sent so far. *)
Record hemtt := Hemtt { h_at : hemtt_at; current : option text; pending : list text; sent : list to_game }.
(** Where the loop of arma/src/lib.rs:27-70 stands; [Stopped]: its thread panicked. *)
Inductive ext_at := Waiting | Receiving (n : N) | Sending (ws : list bytes) | Stopped.
(** [queue]: the channel of lib.rs:21; [calls]: callbacks the game has not handled yet. *)
Record extension := Extension { e_at : ext_at; queue : list to_hemtt; calls : list to_game }.
(** The mission (init.sqf): [told]: line 58 was run; [poses]: [ps_preview]; scripts started by lines 20 and 40; endMission; the
    game process is gone. *)
Record game := Game { told : bool; poses : list text; exporting : nat; shooting : list text; ended : bool; exited : bool }.
(** Screenshots in the profile by class, exported previews by class, and the pictures made: target and the class it shows, newest
    first. *)
Record disk := Disk { shots : list text; stills : list text; made : list (text * text) }.
(** [up]: bytes on their way to HEMTT; [down]: to the game. *)
Record state := State { H : hemtt; E : extension; G : game; D : disk; up : bytes; down : bytes }.

Definition find_class (m : list (text * text)) (k : text) : option text :=
  match find (fun x => eqb_bytes (fst x) k) m with Some x => Some (snd x) | None => None end.

Section Session.
  (** JSON of the messages (serde_json), pictures asked for by class, in the order the hash maps list them, files that were there
      before, and the classes the mission can photograph (init.sqf:33-37: allowedSlots 901). *)
  Context (write_g : to_game -> bytes) (read_g : bytes -> option to_game) (write_h : to_hemtt -> bytes) (read_h : bytes -> option to_hemtt).
  Context (weapons previews : list (text * text)) (there : text -> bool) (uniform : text -> bool).

  (** controller/mod.rs:182-193 and arma/src/lib.rs:97-104 [send]: the length, then the message, in two writes. *)
  Definition frame (b : bytes) : list bytes := [u32_bytes (blen b mod 2 ^ 32); b].
  Definition frames (l : list to_game) : list bytes := flat_map (fun m => frame (write_g m)) l.

  (** photoshoot/mod.rs:169-175 [next_message]. *)
  Definition next_message (p : list text) : to_game * list text :=
    match p with [] => (Done, []) | w :: p' => (Weapon w, p') end.
  (** [Path::exists] on a target. Targets are compared as they are written. *)
  Definition exists_now (d : disk) (t : text) : bool := there t || existsb (fun x => eqb_bytes (fst x) t) (made d).
  (** photoshoot/mod.rs:227-262: every exported preview is put at its target. *)
  Fixpoint place (l : list text) (m : list (text * text)) : option (list (text * text)) :=
    match l with
    | [] => Some m
    | c :: l' => match find_class previews c with Some t => place l' ((t, c) :: m) | None => None end
    end.
  (** photoshoot/mod.rs:183-265 [incoming]: the answers, what is still pending and the disk; image processing always succeeds on a
      screenshot that is there. *)
  Definition incoming (m : to_hemtt) (p : list text) (d : disk) : (list to_game * list text * disk) + reason :=
    match m with
    | Ready =>
        match previews with
        | [] => let (x, p') := next_message p in inl ([x], p', d)
        | _ => inl (map (fun x => Preview (fst x)) previews ++ [PreviewRun], p, d)
        end
    | Shot w =>
        match find_class weapons w with
        | None => inr UnknownClass
        | Some t =>
            if exists_now d t then let (x, p') := next_message p in inl ([x], p', d)
            else if existsb (eqb_bytes w) (shots d) then
              let (x, p') := next_message p in inl ([x], p', Disk (shots d) (stills d) ((t, w) :: made d))
            else inr NoImage
        end
    | Previews =>
        match place (stills d) (made d) with
        | None => inr UnknownClass
        | Some m => let (x, p') := next_message p in inl ([x], p', Disk (shots d) (stills d) m)
        end
    | _ => inl ([], p, d)
    end.

  (** photoshoot/mod.rs:179-181 [missions]. *)
  Definition our_mission : text := bs "photoshoot.VR".
  (** controller/mod.rs:107-140: what is done with a message. *)
  Definition receive (m : to_hemtt) (h : hemtt) (d : disk) : hemtt * disk :=
    match m with
    | Mission p =>
        match split_once_str (bs "\autotest\") p with
        | Some (_, r) => (Hemtt Polling (Some (filter (fun c => negb (c =? 92)) r)) (pending h) (sent h), d)
        | None => (Hemtt Polling (current h) (pending h) (sent h), d)
        end
    | Log _ => (Hemtt Polling (current h) (pending h) (sent h), d)
    | _ =>
        match current h with
        | None => (Hemtt Polling None (pending h) (sent h), d)
        | Some c =>
            if eqb_bytes c our_mission then
              match incoming m (pending h) d with
              | inl (out, p, d') => (Hemtt (match frames out with [] => Polling | ws => Writing ws end) (current h) p (sent h ++ out), d')
              | inr r => (Hemtt (Dead r) (current h) (pending h) (sent h), d)
              end
            else (Hemtt (Dead NoAction) (current h) (pending h) (sent h), d)
        end
    end.

  Definition at_ (a : hemtt_at) (h : hemtt) : hemtt := Hemtt a (current h) (pending h) (sent h).
  (** One turn of the loop of controller/mod.rs:88-143. The socket does not block: [read_exact] of a length that is not all there
      takes what is there and fails. Simplified: the socket's buffer never fills up. *)
  Definition hemtt_turn (s : state) : state :=
    match h_at (H s) with
    | Polling =>
        if exited (G s) then State (at_ Gone (H s)) (E s) (G s) (D s) (up s) (down s)
        else match take_exact 4 (up s) with
             | Some (l, r) => State (at_ (Reading (le_val l)) (H s)) (E s) (G s) (D s) r (down s)
             | None => State (H s) (E s) (G s) (D s) [] (down s)
             end
    | Reading n =>
        match take_exact (N.to_nat n) (up s) with
        | None => State (at_ (Dead Torn) (H s)) (E s) (G s) (D s) [] (down s)
        | Some (b, r) =>
            match read_h b with
            | None => State (at_ (Dead Unreadable) (H s)) (E s) (G s) (D s) r (down s)
            | Some m => let (h, d) := receive m (H s) (D s) in State h (E s) (G s) d r (down s)
            end
        end
    | Writing ws =>
        if exited (G s) then State (at_ (Dead Closed) (H s)) (E s) (G s) (D s) (up s) (down s)
        else match ws with
             | [] => State (at_ Polling (H s)) (E s) (G s) (D s) (up s) (down s)
             | [x] => State (at_ Polling (H s)) (E s) (G s) (D s) (up s) (down s ++ x)
             | x :: ws' => State (at_ (Writing ws') (H s)) (E s) (G s) (D s) (up s) (down s ++ x)
             end
    | Gone | Dead _ => s
    end.

  (** arma/src/lib.rs:28-65: a message is read, if there is one, and handed to the game. *)
  Definition ext_read (s : state) : state :=
    match e_at (E s) with
    | Waiting =>
        match take_exact 4 (down s) with
        | Some (l, r) =>
            if forallb (N.eqb 255) l then State (H s) (E s) (G s) (D s) (up s) r
            else State (H s) (Extension (Receiving (le_val l)) (queue (E s)) (calls (E s))) (G s) (D s) (up s) r
        | None => State (H s) (E s) (G s) (D s) (up s) []
        end
    | Receiving n =>
        match take_exact (N.to_nat n) (down s) with
        | None => State (H s) (Extension Stopped (queue (E s)) (calls (E s))) (G s) (D s) (up s) []
        | Some (b, r) =>
            match read_g b with
            | None => State (H s) (Extension Stopped (queue (E s)) (calls (E s))) (G s) (D s) (up s) r
            | Some Exit => State (H s) (E s) (Game (told (G s)) (poses (G s)) (exporting (G s)) (shooting (G s)) (ended (G s)) true) (D s) (up s) r
            | Some m => State (H s) (Extension Waiting (queue (E s)) (calls (E s) ++ [m])) (G s) (D s) (up s) r
            end
        end
    | _ => s
    end.
  (** arma/src/lib.rs:66-68, 97-104: a message of the scripts is taken from the queue and written. Simplified: reading and taking
      need not alternate, so more orders are covered than can happen. *)
  Definition ext_send (s : state) : state :=
    match e_at (E s) with
    | Waiting =>
        match queue (E s) with
        | [] => s
        | m :: q => State (H s) (Extension (Sending (frame (write_h m))) q (calls (E s))) (G s) (D s) (up s) (down s)
        end
    | Sending ws =>
        match ws with
        | [] => State (H s) (Extension Waiting (queue (E s)) (calls (E s))) (G s) (D s) (up s) (down s)
        | [x] => State (H s) (Extension Waiting (queue (E s)) (calls (E s))) (G s) (D s) (up s ++ x) (down s)
        | x :: ws' => State (H s) (Extension (Sending ws') (queue (E s)) (calls (E s))) (G s) (D s) (up s ++ x) (down s)
        end
    | _ => s
    end.

  Definition say (l : list to_hemtt) (e : extension) : extension := Extension (e_at e) (queue e ++ l) (calls e).
  (** init.sqf:54-59. *)
  Definition game_ready (s : state) : state :=
    if told (G s) then s
    else State (H s) (say [Ready] (E s)) (Game true (poses (G s)) (exporting (G s)) (shooting (G s)) (ended (G s)) (exited (G s))) (D s) (up s) (down s).
  (** init.sqf:30-45: the lines logged for a weapon (what else the slots are is left out). *)
  Definition logs (w : text) (is_uniform : bool) : list to_hemtt :=
    if is_uniform then [Log (bs "Checking Weapon: " ++ w); Log (bs "Allowed Slots: 901"); Log (bs "Uniform: " ++ w)]
    else [Log (bs "Checking Weapon: " ++ w); Log (bs "Allowed Slots: "); Log (bs "Unsupported: " ++ w)].
  (** init.sqf:5-52: a callback is handled. The command called at line 46 does not exist in the extension (arma/src/photoshoot.rs:4-9),
      so nothing comes of it. *)
  Definition game_call (s : state) : state :=
    match calls (E s) with
    | [] => s
    | c :: cs =>
        let e := Extension (e_at (E s)) (queue (E s)) cs in
        let g := G s in
        match c with
        | Exit => State (H s) e g (D s) (up s) (down s)
        | Preview c => State (H s) e (Game (told g) (poses g ++ [c]) (exporting g) (shooting g) (ended g) (exited g)) (D s) (up s) (down s)
        | PreviewRun => State (H s) e (Game (told g) (poses g) (S (exporting g)) (shooting g) (ended g) (exited g)) (D s) (up s) (down s)
        | Weapon w =>
            State (H s) (say (logs w (uniform w)) e)
                  (Game (told g) (poses g) (exporting g) (if uniform w then shooting g ++ [w] else shooting g) (ended g) (exited g)) (D s) (up s) (down s)
        | Done => State (H s) e (Game (told g) (poses g) (exporting g) (shooting g) true (exited g)) (D s) (up s) (down s)
        end
    end.
  (** init.sqf:18-27. Simplified: the engine's BIS_fnc_exportEditorPreviews leaves one image for each class it is given. *)
  Definition game_export (s : state) : state :=
    match exporting (G s) with
    | O => s
    | S n => State (H s) (say [Previews] (E s)) (Game (told (G s)) (poses (G s)) n (shooting (G s)) (ended (G s)) (exited (G s)))
                   (Disk (shots (D s)) (poses (G s)) (made (D s))) (up s) (down s)
    end.
  (** functions/fnc_uniforms.sqf: the oldest of the running scripts is through (the mission is only asked for one at a time).
      Simplified: the screenshot is on the disk when the script goes on after line 23. *)
  Definition game_shoot (s : state) : state :=
    match shooting (G s) with
    | [] => s
    | w :: l => State (H s) (say [Shot w] (E s)) (Game (told (G s)) (poses (G s)) (exporting (G s)) l (ended (G s)) (exited (G s)))
                      (Disk (w :: shots (D s)) (stills (D s)) (made (D s))) (up s) (down s)
    end.
  (** The test mission is over: the game ends (-autotest, controller/mod.rs:164-170). *)
  Definition game_quit (s : state) : state :=
    if ended (G s) then State (H s) (E s) (Game (told (G s)) (poses (G s)) (exporting (G s)) (shooting (G s)) (ended (G s)) true) (D s) (up s) (down s) else s.

  Inductive actor := Hemtt_turn | Ext_read | Ext_send | Game_ready | Game_call | Game_export | Game_shoot | Game_quit.
  Definition act (a : actor) (s : state) : state :=
    match a with
    | Hemtt_turn => hemtt_turn s
    | _ =>
        if exited (G s) then s
        else match a with
             | Ext_read => ext_read s
             | Ext_send => ext_send s
             | Game_ready => game_ready s
             | Game_call => game_call s
             | Game_export => game_export s
             | Game_shoot => game_shoot s
             | _ => game_quit s
             end
    end.
  (** A schedule says whose turn it is. *)
  Definition run (l : list actor) (s : state) : state := fold_left (fun s a => act a s) l s.

  (** photoshoot/mod.rs:155-167 [prepare] and controller/mod.rs:79-86, once the extension has connected. What the scripts said
      before: functions/setMission.sqf of the HEMTT addon, for the game's menu and then for our mission. *)
  Definition start (menus : list text) (folder : text) : state :=
    State (Hemtt Polling None (rev (map fst weapons)) [])
          (Extension Waiting (map Mission menus ++ [Mission (folder ++ bs "\autotest\photoshoot.VR\")]) [])
          (Game false [] O [] false false) (Disk [] [] []) [] [].
End Session.
