(** Silencing a file descriptor (macposts/utils.py:19-44): the descriptors of the process and what
    reaches the files.  Operating system and buffered streams are modelled as far as they matter. *)
From Verif Require Import Base.
Local Open Scope Z_scope.

(** what a descriptor refers to: a file, or the null device, which forgets what is written *)
Inductive desc := File (f : Z) | Null.
(** the table of descriptors (numbers below [lim] can be given out), and what each file received *)
Record os := { tab : Z -> option desc; lim : nat; log : Z -> list Z }.
Definition set_tab (o : os) (x : Z) (d : option desc) : os := {| tab := upd (tab o) x d; lim := lim o; log := log o |}.
(** dup, open, dup2, close and write as used by macposts/utils.py:36-38, 42-44; [None] is an
    OSError.  New descriptors get the lowest free number.  dup2 onto a number beyond [lim] is not
    considered: here it is always onto a number that was open. *)
Definition lowest_free (o : os) : option Z :=
  find (fun x => match tab o x with None => true | Some _ => false end) (map Z.of_nat (seq 0 (lim o))).
Definition os_new (o : os) (d : desc) : option (Z * os) :=
  match lowest_free o with Some x => Some (x, set_tab o x (Some d)) | None => None end.
Definition os_dup (o : os) (x : Z) : option (Z * os) := match tab o x with Some d => os_new o d | None => None end.
Definition os_dup2 (o : os) (x y : Z) : option os := match tab o x with Some d => Some (set_tab o y (Some d)) | None => None end.
Definition os_close (o : os) (x : Z) : option os := match tab o x with Some _ => Some (set_tab o x None) | None => None end.
Definition os_write (o : os) (x : Z) (data : list Z) : option os :=
  match tab o x with
  | Some (File f) => Some {| tab := tab o; lim := lim o; log := upd (log o) f (log o f ++ data) |}
  | Some Null => Some o
  | None => None
  end.

(** macposts/utils.py:19-44 [silence] around a block [body], which returns the new state and whether
    it raised an exception.  28-34: if the descriptor is not valid the generator yields inside
    try/finally with a return in the finally part, so that an exception thrown into it ends the
    generator normally and contextlib takes it as handled.  42-44: an OSError of the clean-up
    replaces the exception of the block.  The result says whether an exception leaves the with
    statement.  The rest of the process is [X]. *)
Definition silence {X} (body : os * X -> os * X * bool) (fd : Z) (s : os * X) : os * X * bool :=
  let (o, m) := s in
  match tab o fd with
  | None => (fst (body s), false)
  | Some _ =>
      match os_dup o fd with
      | None => (o, m, true)
      | Some (save, o1) =>
          match os_new o1 Null with
          | None => (o1, m, true)
          | Some (null, o2) =>
              match os_dup2 o2 null fd with
              | None => (o2, m, true)
              | Some o3 =>
                  match body (o3, m) with
                  | (o4, m', x) =>
                      match os_dup2 o4 save fd with
                      | None => (o4, m', true)
                      | Some o5 => match os_close o5 null with
                                   | None => (o5, m', true)
                                   | Some o6 => match os_close o6 save with None => (o6, m', true) | Some o7 => (o7, m', x) end
                                   end
                      end
                  end
              end
          end
      end
  end.

(** a block that writes to descriptors and then perhaps raises an exception; macposts/utils.py:40
    (any block) *)
Fixpoint writes {X} (ws : list (Z * list Z)) (fails : bool) (s : os * X) : os * X * bool :=
  match ws with
  | [] => (s, fails)
  | (x, data) :: r => match os_write (fst s) x data with Some o' => writes r fails (o', snd s) | None => (s, true) end
  end.

(** a stream with a buffer of [cap] bytes, as stdout of the process to which the library prints
    (src/common.h:9-14 and the printf calls): what does not fit is written with all that was kept.
    The streams of the C library write in portions of the buffer size; only what is kept matters
    here. *)
Definition print (fd : Z) (cap : nat) (s : os * list Z) (data : list Z) : os * list Z :=
  let (o, buf) := s in
  let all := (buf ++ data)%list in
  if (length all <=? cap)%nat then (o, all) else match os_write o fd all with Some o' => (o', []) | None => (o, []) end.
Definition prints (fd : Z) (cap : nat) (s : os * list Z) (ps : list (list Z)) : os * list Z := fold_left (print fd cap) ps s.
(** a program that prints [before], then [inside] under macposts/utils.py:20 [silence], then
    [after], and flushes at its end *)
Definition program (fd : Z) (cap : nat) (before inside after : list (list Z)) (o : os) : os :=
  let s1 := prints fd cap (o, []) before in
  let s2 := fst (silence (fun s => (prints fd cap s inside, false)) fd s1) in
  let (o3, b3) := prints fd cap s2 after in
  match os_write o3 fd b3 with Some o4 => o4 | None => o3 end.
