(** Model of crates/mabo-project/src/lib.rs: which files a project consists of.

    The file system below a directory is a tree.  Parameters are the crates the code relies on: globset ([glob]: a pattern, [None] if it is invalid, or the relative paths
    it matches), toml and serde ([read_toml]: the patterns [package.files] of a project file, [None] if the text is not a project file), and the rules by which the crate
    ignore leaves entries out ([skip root path]: hidden files, .gitignore and the like, other file systems, the file that is stdout).  That patterns which are valid one
    by one cannot be combined ([Error::PatternSet], L39, L196) is left out: globset has a size limit only. *)
From Verif Require Import Base Syntax Parser.
Require Coq.Strings.String.
Import Coq.Strings.String.StringSyntax.
Local Open Scope N_scope.

Definition path := list str.
(** [File None]: cannot be read as text.  [Link n]: a symbolic link to [n].  [Broken]: a directory that cannot be listed, or (behind a link) nothing. *)
Inductive node := File (c : option str) | Dir (l : list (str * node)) | Link (n : node) | Broken.

(** The iterators [Walk] and [WalkBuilder] of the crate ignore: the entries below a node, in the order the directories list them; [None] is an error.
    Without [follow] links are entries themselves. *)
Fixpoint walk (follow : bool) (skip : path -> bool) (p : path) (n : node) : list (option (path * node)) :=
  match n with
  | File c => [Some (p, n)]
  | Dir l => Some (p, n) :: flat_map (fun x => if skip (p ++ [fst x]) then [] else walk follow skip (p ++ [fst x]) (snd x)) l
  | Link m => if follow then walk follow skip p m else [Some (p, n)]
  | Broken => [None]
  end.

(** [Path::extension] (std): the part behind the last dot of the last component, unless nothing is before that dot. *)
Fixpoint split_dot (s : str) : option (str * str) :=
  match s with
  | [] => None
  | c :: s' => match split_dot s' with Some (b, a) => Some (c :: b, a) | None => if c =? 46 then Some ([], s') else None end
  end.
Definition extension (p : path) : option str :=
  match rev p with
  | name :: _ => match split_dot name with Some (_ :: _, a) => Some a | _ => None end
  | [] => None
  end.

(** L23-58, the errors; what they carry besides is left out. *)
Inductive perr := EPattern (pattern : str) | EWalk | ERead (file : path) | EParse (file : path).
Inductive pres (A : Type) := POk (a : A) | PErr (e : perr).
Arguments POk {A} a.
Arguments PErr {A} e.

Record project := Project { pj_path : path; pj_files : list path }.

Section Package.
Variables (glob : str -> option (path -> bool)) (read_toml : str -> option (list str)) (skip : path -> path -> bool).

(** L180-197. *)
Fixpoint compile_patterns (ps : list str) : pres (list (path -> bool)) :=
  match ps with
  | [] => POk []
  | p :: ps' => match glob p with
      | None => PErr (EPattern p)
      | Some g => match compile_patterns ps' with POk gs => POk (g :: gs) | PErr e => PErr e end
      end
  end.
(** L199-213. *)
Fixpoint pick_files (base : path) (gs : list (path -> bool)) (es : list (option (path * node))) : pres (list path) :=
  match es with
  | [] => POk []
  | None :: _ => PErr EWalk
  | Some (p, _) :: es' =>
      match pick_files base gs es' with
      | POk fs => POk (if (existsb (fun g => g p) gs && match extension p with Some x => str_eqb x (tx "mabo") | None => false end)%bool then (base ++ p) :: fs else fs)
      | PErr e => PErr e
      end
  end.
(** L173-214 [collect_files]. *)
Definition collect_files (base : path) (n : node) (patterns : list str) : pres (list path) :=
  match compile_patterns patterns with
  | POk gs => pick_files base gs (walk true (skip base) [] n)
  | PErr e => PErr e
  end.
(** [fs::read_to_string] of a directory entry follows links. *)
Fixpoint read (n : node) : option str := match n with File c => c | Link m => read m | _ => None end.
Fixpoint child (name : str) (l : list (str * node)) : option node :=
  match l with [] => None | (x, n) :: l' => if str_eqb x name then Some n else child name l' end.
Fixpoint resolve (n : node) : node := match n with Link m => resolve m | _ => n end.
(** L148-171 [load_project] and L141-146 [load]: [base] is the directory [n]; the project file is in it. *)
Definition load (base : path) (n : node) : pres project :=
  let file := base ++ [tx "Mabo.toml"] in
  match match resolve n with Dir l => option_map read (child (tx "Mabo.toml") l) | _ => None end with
  | Some (Some t) => match read_toml t with
      | Some patterns => match collect_files base n patterns with POk fs => POk (Project file fs) | PErr e => PErr e end
      | None => PErr (EParse file)
      end
  | _ => PErr (ERead file)
  end.
(** The entry at a path (no links on the way: [discover] does not follow them). *)
Fixpoint at_path (n : node) (p : path) : option node :=
  match p with
  | [] => Some n
  | x :: p' => match n with Dir l => match child x l with Some m => at_path m p' | None => None end | _ => None end
  end.
(** L111-131 [discover]; [**/Mabo.toml] matches the paths that end with that component.  Errors of the walk are dropped.  Simplification: [base] is a directory. *)
Definition is_project (e : option (path * node)) : option path :=
  match e with
  | Some (p, File _) => match rev p with x :: q => if str_eqb x (tx "Mabo.toml") then Some (rev q) else None | [] => None end
  | _ => None
  end.
Fixpoint all_ok {A} (l : list (pres A)) : pres (list A) :=
  match l with
  | [] => POk []
  | POk a :: l' => match all_ok l' with POk r => POk (a :: r) | PErr e => PErr e end
  | PErr e :: _ => PErr e
  end.
Fixpoint somes {A} (l : list (option A)) : list A := match l with [] => [] | Some a :: l' => a :: somes l' | None :: l' => somes l' end.
Definition discover (base : path) (n : node) : pres (list project) :=
  all_ok (map (fun q => load (base ++ q) (match at_path n q with Some m => m | None => Broken end)) (somes (map is_project (walk false (skip base) [] n)))).
End Package.
