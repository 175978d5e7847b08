(** Model of tools/runtimeenv.py: the context manager [RunTimeEnv], together
    with the few things it touches: sys.stdout, the log files and mkl's thread
    setting.  The programs that use it are the small language [cmd]. *)
From Coq Require Import String List ZArith Bool Ascii.
From Verif Require Import Py.
Import ListNotations.
Open Scope string_scope.

(** sys.stdout is the console or an opened log file (index of its file object). *)
Inductive stream := Console | Log (h : nat).
(** The name of a log file: the directory (resolved path, numbered) and the
    text of [strftime("%Y-%m-%d %H-%M-%S")] (numbered) in "Log {0}.txt". *)
Definition fname := (Z * Z)%type.
Definition fname_eqb (a b : fname) : bool := (Z.eqb (fst a) (fst b) && Z.eqb (snd a) (snd b))%bool.
(** A Python text file object open for writing: its name, position and whether it is open. *)
Record handle := { h_name : fname; h_pos : nat; h_open : bool }.

(** A RunTimeEnv instance: the fields _threads_num, _rd, _path, set by
    __init__ (runtimeenv.py:30-64), and _stdout, _fp, which exist only after
    the first __enter__ (lines 75-76). *)
Record inst := { i_threads : Z; i_rd : bool; i_path : Z; i_stdout : option stream; i_fp : option nat }.

Record world := {
  out : stream;                       (* sys.stdout *)
  console : string;                   (* everything the console received *)
  handles : list handle;              (* every file object ever opened by open() *)
  files : fname -> option string;     (* the file system *)
  threads : Z;                        (* mkl's thread setting *)
  opened : nat;                       (* number of logs opened so far *)
  tick : nat;                         (* number of other clock readings so far *)
  insts : list inst                   (* instances bound to variables *)
}.

Definition set_out w o := {| out := o; console := console w; handles := handles w; files := files w;
  threads := threads w; opened := opened w; tick := tick w; insts := insts w |}.
Definition set_console w c := {| out := out w; console := c; handles := handles w; files := files w;
  threads := threads w; opened := opened w; tick := tick w; insts := insts w |}.
Definition set_handles w h := {| out := out w; console := console w; handles := h; files := files w;
  threads := threads w; opened := opened w; tick := tick w; insts := insts w |}.
Definition set_files w f := {| out := out w; console := console w; handles := handles w; files := f;
  threads := threads w; opened := opened w; tick := tick w; insts := insts w |}.
Definition set_threads w t := {| out := out w; console := console w; handles := handles w; files := files w;
  threads := t; opened := opened w; tick := tick w; insts := insts w |}.
Definition set_opened w n := {| out := out w; console := console w; handles := handles w; files := files w;
  threads := threads w; opened := n; tick := tick w; insts := insts w |}.
Definition set_tick w n := {| out := out w; console := console w; handles := handles w; files := files w;
  threads := threads w; opened := opened w; tick := n; insts := insts w |}.
Definition set_insts w l := {| out := out w; console := console w; handles := handles w; files := files w;
  threads := threads w; opened := opened w; tick := tick w; insts := l |}.

Definition update {A} (l : list A) (i : nat) (x : A) : list A := (firstn i l ++ x :: skipn (S i) l)%list.
Definition put (f : fname -> option string) (n : fname) (s : string) : fname -> option string :=
  fun m => if fname_eqb m n then Some s else f m.
Fixpoint stake (n : nat) (s : string) : string :=
  match n, s with O, _ => "" | S m, EmptyString => String zero (stake m "") | S m, String c r => String c (stake m r) end.
Fixpoint sdrop (n : nat) (s : string) : string :=
  match n, s with O, _ => s | S m, EmptyString => "" | S m, String c r => sdrop m r end.
(** Writing [s] at offset [p] (a gap is filled with NULs). *)
Definition write_at (p : nat) (s c : string) : string := stake p c ++ s ++ sdrop (p + String.length s) c.

(** A statement that may raise. *)
Definition act := world -> world * option exn.
Definition seqa (a b : act) : act := fun w => match a w with (w', None) => b w' | r => r end.
Notation "a >> b" := (seqa a b) (at level 58, right associativity).

(** file.write(s) on the file object [h]: ValueError once it is closed. Line
    buffering is not modelled: text reaches the file at once. *)
Definition fwrite (h : nat) (s : string) : act := fun w =>
  match nth_error (handles w) h with
  | None => (w, Some ValueError)
  | Some hd =>
    if h_open hd then
      let old := match files w (h_name hd) with Some c => c | None => "" end in
      (set_files (set_handles w (update (handles w) h {| h_name := h_name hd; h_pos := h_pos hd + String.length s; h_open := true |}))
         (put (files w) (h_name hd) (write_at (h_pos hd) s old)), None)
    else (w, Some ValueError)
  end.
(** print(s): writes s and a newline to the current sys.stdout. *)
Definition newline : string := String (ascii_of_nat 10) "".
Definition print (s : string) : act := fun w =>
  match out w with
  | Console => (set_console w (console w ++ s ++ newline), None)
  | Log h => fwrite h (s ++ newline) w
  end.

Section Env.
(** The environment's answers: the n-th log's time stamp, the text of the n-th
    other strftime call, the text of an exception's type, value, traceback, and
    what mkl.get_max_threads() reports under a given thread setting. *)
Variable name_time : nat -> Z.
Variable text_time : nat -> string.
Variables exc_type exc_value exc_tb : exn -> string.
Variable get_max_threads : Z -> Z.

(** strftime(TIME_FORMAT) *)
Definition with_time (k : string -> act) : act := fun w => k (text_time (tick w)) (set_tick w (S (tick w))).
(** "=" * 80 *)
Fixpoint rep (n : nat) (s : string) : string := match n with O => "" | S m => s ++ rep m s end.
Definition rule : string := rep 80 "=".

(** __init__, runtimeenv.py:30-64; threads_num is None or an int ([isinstance]
    failures are out of the model); path.mkdir is assumed to succeed. *)
Definition init (rd : bool) (path : Z) (threads_num : option Z) (w : world) : res inst :=
  match threads_num with
  | None => Ok {| i_threads := get_max_threads (threads w); i_rd := rd; i_path := path; i_stdout := None; i_fp := None |}
  | Some t => if Z.ltb 0 t
              then Ok {| i_threads := t; i_rd := rd; i_path := path; i_stdout := None; i_fp := None |}
              else Err ValueError
  end.

(** __enter__, runtimeenv.py:66-85: returns also the updated instance. open()
    in mode 'w' is assumed to succeed; it truncates an existing file. *)
Definition enter (i : inst) (w : world) : inst * (world * option exn) :=
  let w := set_threads w (i_threads i) in
  if i_rd i then
    let n := (i_path i, name_time (opened w)) in
    let h := List.length (handles w) in
    let w1 := set_opened (set_files (set_handles w (handles w ++ [{| h_name := n; h_pos := 0; h_open := true |}])%list)
                         (put (files w) n "")) (S (opened w)) in
    let i1 := {| i_threads := i_threads i; i_rd := i_rd i; i_path := i_path i;
                 i_stdout := Some (out w1); i_fp := Some h |} in
    (i1, (with_time (fun t => print ("Entering run time environment at " ++ t)) >> print rule) (set_out w1 (Log h)))
  else (i, (w, None)).

(** file.close(): idempotent. *)
Definition fclose (h : nat) : act := fun w =>
  match nth_error (handles w) h with
  | None => (w, None)
  | Some hd => (set_handles w (update (handles w) h {| h_name := h_name hd; h_pos := h_pos hd; h_open := false |}), None)
  end.

(** __exit__, runtimeenv.py:87-112; [exc] is the exception of the body, if any.
    It returns False: the exception, if any, propagates. *)
Definition exit_ (i : inst) (exc : option exn) : act := fun w =>
  let w := set_threads w (get_max_threads (threads w)) in
  if i_rd i then
    (print rule >>
     match exc with
     | None => print "Non exception has occurred!"
     | Some e =>
         print ("Exc_type: " ++ exc_type e) >>
         print ("Exc_value: " ++ exc_value e) >>
         print "Traceback:" >>
         match i_fp i with None => fun w => (w, Some AttributeError) | Some h => fwrite h (exc_tb e) end
     end >>
     print rule >>
     with_time (fun t => print ("Exit run time environment at: " ++ t)) >>
     (fun w => match i_stdout i with None => (w, Some AttributeError) | Some o => (set_out w o, None) end) >>
     (fun w => match i_fp i with None => (w, Some AttributeError) | Some h => fclose h w end)) w
  else (w, None).

(** Programs. *)
Inductive cmd :=
| CPrint (s : string)                    (* print(s) *)
| CRaise (e : exn)                       (* raise e *)
| CTry (body : list cmd)                 (* try: body; except Exception: pass *)
| CWithNew (rd : bool) (path : Z) (threads_num : option Z) (body : list cmd)
                                         (* with RunTimeEnv(rd, path, threads_num): body *)
| CWith (v : nat) (body : list cmd).     (* with envs[v]: body *)

(** The with statement of Python: __enter__, body, __exit__ (given the body's
    exception), the exception of the body, unless __exit__ raises another one. *)
Definition after_exit (exc : option exn) (r : world * option exn) : world * option exn :=
  match r with (w, None) => (w, exc) | (w, Some e) => (w, Some e) end.

Fixpoint exec (c : cmd) (w : world) {struct c} : world * option exn :=
  let block := fix block (l : list cmd) (w : world) {struct l} : world * option exn :=
    match l with
    | [] => (w, None)
    | c :: r => match exec c w with (w', None) => block r w' | x => x end
    end in
  match c with
  | CPrint s => print s w
  | CRaise e => (w, Some e)
  | CTry body => (fst (block body w), None)
  | CWithNew rd path tn body =>
      match init rd path tn w with
      | Err e => (w, Some e)
      | Ok i =>
        match enter i w with
        | (_, (w1, Some e)) => (w1, Some e)
        | (i1, (w1, None)) => let (w2, exc) := block body w1 in after_exit exc (exit_ i1 exc w2)
        end
      end
  | CWith v body =>
      match nth_error (insts w) v with
      | None => (w, Some IndexError)
      | Some i =>
        match enter i w with
        | (i1, (w1, Some e)) => (set_insts w1 (update (insts w1) v i1), Some e)
        | (i1, (w1, None)) =>
          let w1 := set_insts w1 (update (insts w1) v i1) in
          let (w2, exc) := block body w1 in
          match nth_error (insts w2) v with      (* the same object: its current fields *)
          | None => (w2, Some IndexError)
          | Some i2 => after_exit exc (exit_ i2 exc w2)
          end
        end
      end
  end.
Fixpoint block (l : list cmd) (w : world) {struct l} : world * option exn :=
  match l with
  | [] => (w, None)
  | c :: r => match exec c w with (w', None) => block r w' | x => x end
  end.
End Env.
