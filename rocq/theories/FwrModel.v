(** Writing generated code to files.

    Modelled code: src/fastforward/_autoquant/pybuilder/writer.py:17-73, the writers of code, FileWriter above all.
    Paths are lists of names, and names are texts; a file system has files with contents and directories. Rights,
    links, full disks and other processes are not modelled. *)
From Coq Require Import Ascii String List Arith Bool.
From Verif Require Import Prelude.
Import ListNotations.
Local Open Scope list_scope.

Notation text := (list ascii).
Definition path := list text.
Definition dot_py : text := list_ascii_of_string ".py".
Definition init_py : text := list_ascii_of_string "__init__.py".

Definition text_eq_dec : forall a b : text, {a = b} + {a <> b} := list_eq_dec ascii_dec.
Definition path_eq_dec : forall a b : path, {a = b} + {a <> b} := list_eq_dec text_eq_dec.
Definition same (a b : path) : bool := if path_eq_dec a b then true else false.
Definition same_text (a b : text) : bool := if text_eq_dec a b then true else false.

(** pathlib: the suffix of a name begins with its last dot, which is neither the first nor the last
    character. [cut_last_dot] splits at the last dot. *)
Definition dot : ascii := "."%char.
Fixpoint cut_last_dot (n : text) : option (text * text) :=
  match n with
  | [] => None
  | c :: r => match cut_last_dot r with
              | Some (a, b) => Some (c :: a, b)
              | None => if ascii_dec c dot then Some ([], c :: r) else None
              end
  end.
Definition stem_and_suffix (n : text) : text * text :=
  match cut_last_dot n with
  | Some (c :: a, b1 :: b2 :: b) => (c :: a, b1 :: b2 :: b)
  | _ => (n, [])
  end.

(** str.removesuffix(".py") *)
Definition remove_py (n : text) : text :=
  let k := length n - 3 in if same_text (skipn k n) dot_py then firstn k n else n.

Record writer := mkWriter { output_dir : path; output_file : path; module_name : text; force : bool }.

(** writer.py:49-64 FileWriter.__init__ and :24-25 BasicCodeWriter.__init__; [None]: IndexError for the empty
    path, the current directory. *)
Definition file_writer (output_path : path) (force_overwrite : bool) : option writer :=
  match rev output_path with
  | [] => None
  | last :: front =>
      let '(stem, suffix) := stem_and_suffix last in
      if same_text suffix dot_py then Some (mkWriter (rev front) output_path (remove_py stem) force_overwrite)
      else Some (mkWriter output_path (output_path ++ [init_py]) (remove_py last) force_overwrite)
  end.

Record fs := mkFs { file : path -> option text; is_dir : path -> bool }.
Definition set_file (s : fs) (p : path) (c : text) : fs :=
  mkFs (fun q => if same q p then Some c else file s q) (is_dir s).

(** The beginnings of a path, and whether one is a file. *)
Fixpoint beginnings (p : path) : list path := [] :: match p with [] => [] | n :: r => map (cons n) (beginnings r) end.
Definition is_file (s : fs) (p : path) : bool := match file s p with Some _ => true | None => false end.
(** pathlib.Path.mkdir(exist_ok=True, parents=True); [None]: FileExistsError or NotADirectoryError. *)
Definition mkdir (s : fs) (p : path) : option fs :=
  if existsb (is_file s) (beginnings p) then None
  else Some (mkFs (file s) (fun q => existsb (same q) (beginnings p) || is_dir s q)).

Inductive outcome := Written | FileExists | OtherError.

(** pathlib.Path.write_text: the file is opened, which empties it, and then written in parts of any sizes. The
    file systems in between and at the end, in order. *)
Fixpoint write_parts (s : fs) (p : path) (have : text) (parts : list text) : list fs :=
  set_file s p have :: match parts with [] => [] | x :: r => write_parts s p (have ++ x) r end.

(** writer.py:66-73 FileWriter.write, with all file systems on the way; the last is the result. [split]: the
    parts in which a text is written. *)
Definition write (split : text -> list text) (w : writer) (s : fs) (code : text) : list fs * outcome :=
  match mkdir s (output_dir w) with
  | None => ([s], OtherError)
  | Some s1 =>
      let exists_ := is_file s1 (output_file w) || is_dir s1 (output_file w) in
      if exists_ && negb (force w) then ([s; s1], FileExists)
      else if is_dir s1 (output_file w) then ([s; s1], OtherError)
      else (s :: s1 :: write_parts s1 (output_file w) [] (split code), Written)
  end.
