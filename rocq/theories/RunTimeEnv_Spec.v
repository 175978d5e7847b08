(** What a program that uses RunTimeEnv is supposed to do, without any file or
    stdout machinery. *)
From Coq Require Import String List ZArith.
From Verif Require Import Py RunTimeEnv_Model.
Import ListNotations.
Open Scope string_scope.

(** The line end print appends, and the line of 80 equals signs of the log files. *)
Definition eol : string := String (Ascii.ascii_of_nat 10) "".
Definition bar : string := "================================================================================".

(** [rds v]: whether the instance bound to variable v redirects (None: no such
    variable).  [said rds c] = (the text statement c prints to the stdout that
    is current when it starts, the exception it ends with): prints go there
    unless a redirecting environment surrounds them; environments neither
    swallow nor add exceptions; a non-positive thread number is refused. *)
Section Said.
Variable rds : nat -> option bool.
Fixpoint said (c : cmd) : string * option exn :=
  let saids := fix saids (l : list cmd) : string * option exn :=
    match l with
    | [] => ("", None)
    | c :: r => match said c with
                | (s, None) => let (s', e) := saids r in (s ++ s', e)
                | x => x
                end
    end in
  match c with
  | CPrint s => (s ++ eol, None)
  | CRaise e => ("", Some e)
  | CTry body => (fst (saids body), None)
  | CWithNew rd _ tn body =>
      match tn with
      | Some t => if Z.ltb 0 t then (if rd then "" else fst (saids body), snd (saids body)) else ("", Some ValueError)
      | None => (if rd then "" else fst (saids body), snd (saids body))
      end
  | CWith v body =>
      match rds v with
      | None => ("", Some IndexError)
      | Some rd => (if rd then "" else fst (saids body), snd (saids body))
      end
  end.
Fixpoint saids (l : list cmd) : string * option exn :=
  match l with
  | [] => ("", None)
  | c :: r => match said c with
              | (s, None) => let (s', e) := saids r in (s ++ s', e)
              | x => x
              end
  end.
End Said.

(** Properly nested use: no variable's environment is entered while that
    environment is still active ([act]: the active ones).  Entering the same
    one again later is fine, and so is nesting different ones. *)
Fixpoint nested (active : list nat) (c : cmd) : Prop :=
  let all := fix all (a : list nat) (l : list cmd) : Prop :=
    match l with [] => True | c :: r => nested a c /\ all a r end in
  match c with
  | CPrint _ | CRaise _ => True
  | CTry body => all active body
  | CWithNew _ _ _ body => all active body
  | CWith v body => ~ In v active /\ all (v :: active) body
  end.
Fixpoint all_nested (active : list nat) (l : list cmd) : Prop :=
  match l with [] => True | c :: r => nested active c /\ all_nested active r end.

(** The text of a complete log. *)
Definition log_text (t1 text footer t2 : string) : string :=
  "Entering run time environment at " ++ t1 ++ eol ++ bar ++ eol ++ text ++
  bar ++ eol ++ footer ++ bar ++ eol ++ "Exit run time environment at: " ++ t2 ++ eol.
Definition footer (exc_type exc_value exc_tb : exn -> string) (exc : option exn) : string :=
  match exc with
  | None => "Non exception has occurred!" ++ eol
  | Some e => "Exc_type: " ++ exc_type e ++ eol ++ "Exc_value: " ++ exc_value e ++ eol ++
              "Traceback:" ++ eol ++ exc_tb e
  end.

(** stdout is usable: the console or an open file. *)
Definition stdout_open (w : world) : Prop :=
  match out w with
  | Console => True
  | Log h => exists hd, nth_error (handles w) h = Some hd /\ h_open hd = true
  end.
Definition rds_of (w : world) (v : nat) : option bool :=
  match nth_error (insts w) v with Some i => Some (i_rd i) | None => None end.
