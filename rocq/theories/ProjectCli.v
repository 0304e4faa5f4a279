(** The commands of crates/mabo-cli/src/main.rs on a project directory: which files they are given (L108-134, crates/mabo-project), and what they do with them (Tools.v).

    The file system is the tree of Package.v.  Further parameter: [entries], the crate glob, which lists what a pattern given on the command line matches ([None]: not a pattern;
    [None] in the list: an entry that cannot be read).  Simplification: the current directory is given ([base] is the argument or it). *)
From Verif Require Import Base Syntax Parser Printer Compiler Resolve Package.
From Verif Require Tools.
Require Coq.Strings.String.
Import Coq.Strings.String.StringSyntax.
Local Open Scope N_scope.

(** Opening a path below a directory, through links. *)
Fixpoint lookup (n : node) (p : path) : option node :=
  match p with
  | [] => Some n
  | x :: p' => match resolve n with Dir l => match child x l with Some m => lookup m p' | None => None end | _ => None end
  end.
Fixpoint strip (base p : path) : option path :=
  match base, p with
  | [], _ => Some p
  | x :: base', y :: p' => if str_eqb x y then strip base' p' else None
  | _ :: _, [] => None
  end.
(** [fs::read_to_string] of a path; files outside of the directory are those of [outside]. *)
Definition read_at (outside : path -> option str) (base : path) (n : node) (p : path) : option str :=
  match strip base p with Some q => match lookup n q with Some m => read m | None => None end | None => outside p end.

(** [Path::parent], [Path::file_stem] and the extension of a file that [collect_files] or L122 let through. *)
Definition sfile_of (p : path) : Tools.sfile :=
  match rev p with
  | name :: r => Tools.File (rev r) (match split_dot name with Some (b, _) => b | None => name end)
  | [] => Tools.File [] []
  end.

Section ProjectCli.
Variables (glob : str -> option (path -> bool)) (read_toml : str -> option (list str)) (skip : path -> path -> bool) (entries : str -> option (list (option path))).

(** L117-124: the entries of one pattern. *)
Fixpoint take_entries (es : list (option path)) : option (list path) :=
  match es with
  | [] => Some []
  | None :: _ => None
  | Some p :: es' => match take_entries es' with
      | Some fs => Some (if match extension p with Some x => str_eqb x (tx "mabo") | None => false end then p :: fs else fs)
      | None => None
      end
  end.
(** L115-125. *)
Fixpoint all_entries (patterns : list str) : option (list path) :=
  match patterns with
  | [] => Some []
  | p :: ps => match entries p with
      | None => None
      | Some es => match take_entries es, all_entries ps with Some a, Some b => Some (a ++ b) | _, _ => None end
      end
  end.
(** L108-127 [project_or_files]; [None] is an error. *)
Definition project_or_files (base : path) (n : node) (patterns : list str) : option (list path) :=
  match patterns with
  | [] => match load glob read_toml skip base n with POk pj => Some (pj_files pj) | PErr _ => None end
  | _ => all_entries patterns
  end.

Context {F : Type}.
Variables (parse_f64 : str -> option F) (fmt_f64 : F -> str) (esc_u : N -> bool).

(** L46-56 [check] with its arguments. *)
Definition check_command (outside : path -> option str) (base : path) (n : node) (patterns : list str) : list Tools.sfile * Tools.status :=
  match project_or_files base n patterns with
  | None => ([], Tools.Failure)
  | Some fs => Tools.check parse_f64 (read_at outside base n) (map sfile_of fs)
  end.
(** L58-77 [format] with its arguments. *)
Definition format_command (outside : path -> option str) (base : path) (n : node) (patterns : list str) : list (path * str) * list Tools.sfile * Tools.status :=
  match project_or_files base n patterns with
  | None => ([], [], Tools.Failure)
  | Some fs => Tools.format parse_f64 fmt_f64 esc_u (read_at outside base n) (map sfile_of fs)
  end.
(** L79-92 [doc] with its arguments. *)
Definition doc_command (chk : bool) (out : path) (outside : path -> option str) (base : path) (n : node) : list (path * Tools.page) * Tools.status :=
  match load glob read_toml skip base n with
  | PErr _ => ([], Tools.Failure)
  | POk pj => Tools.doc parse_f64 chk out (read_at outside base n) (map sfile_of (pj_files pj))
  end.
End ProjectCli.
