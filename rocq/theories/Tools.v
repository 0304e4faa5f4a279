(** The programs around the compiler: the Rust build script (crates/mabo-build/src/lib.rs), the Go
    generator (crates/mabo-go/src/main.rs) and the command line tool (crates/mabo-cli/src/main.rs
    with crates/mabo-doc).

    A program is modelled by the files it writes, in order, and by how it ends.  The files it
    reads are given by [read]; [None] is a file that cannot be read or is not UTF-8.

    Simplifications: creating directories and writing never fails (a failing write is one of the
    points where the program can be stopped, see ToolsSpec.v); loading Mabo.toml and searching
    files (mabo-project) is the list [files]; names of files are texts without slashes; the
    console output is the list of reported files. *)
From Verif Require Import Base Syntax Parser Printer Compiler Resolve.
Require Coq.Strings.String.
Import Coq.Strings.String.StringSyntax.
Local Open Scope N_scope.

Definition lit_str (s : String.string) : str := map Ascii.N_of_ascii (String.list_ascii_of_string s).
Arguments lit_str s%string_scope.

Definition path := list str.

(** A schema file: crates/mabo-project/src/lib.rs L173-214 [collect_files] (and
    crates/mabo-cli/src/main.rs L108-127) only let through the extension "mabo", so the name is
    the stem ([Path::file_stem]) and that extension. *)
Record sfile := File { f_dir : path; f_stem : str }.
Definition f_path (f : sfile) : path := f_dir f ++ [f_stem f ++ lit_str ".mabo"].

Section Tools.
Context {F : Type}.
Variable parse_f64 : str -> option F.
Variable fmt_f64 : F -> str.
Variable esc_u : N -> bool.
(** The parameters of the compiler model: order of a hash set, overflow checks, order of a hash
    map. *)
Variable pick : list str -> nat.
Variable chk : bool.
Variable order : list (ext * lerr) -> list (ext * lerr).

(** How the first half of a build can fail. *)
Inductive ferr :=
| FRead (f : sfile)
| FParse (f : sfile)
| FValidate (f : sfile) (e : verr)
| FResolve (e : rerr).

(** crates/mabo-build/src/lib.rs L156-163: read all files. *)
Fixpoint read_all (read : path -> option str) (files : list sfile) : cres ferr (list (sfile * str)) :=
  match files with
  | [] => COk []
  | f :: files' =>
      match read (f_path f) with
      | None => CErr (FRead f)
      | Some i => cbind (read_all read files') (fun l => COk ((f, i) :: l))
      end
  end.
(** mabo-build/src/lib.rs L165-183: parse and validate one file after the other. *)
Fixpoint check_all (inputs : list (sfile * str)) : cres ferr (list (str * pschema F)) :=
  match inputs with
  | [] => COk []
  | (f, i) :: inputs' =>
      match schema_parse parse_f64 i with
      | None => CErr (FParse f)
      | Some s =>
          cbind (map_err (FValidate f) (validate_schema pick chk s)) (fun _ =>
          cbind (check_all inputs') (fun l => COk ((f_stem f, s) :: l)))
      end
  end.
(** mabo-build/src/lib.rs L150-193; crates/mabo-go/src/main.rs L34-67 does the same. *)
Definition front (read : path -> option str) (files : list sfile) : cres ferr (list (str * pschema F)) :=
  cbind (read_all read files) (fun inputs =>
  cbind (check_all inputs) (fun values =>
  cbind (map_err FResolve (resolve_schemas order values)) (fun _ => COk values))).

(** How a build ends. *)
Inductive bexit :=
| BDone
| BErr (e : ferr)
| BInvalidCode (stem : str)
| BPanic.

(** What the Rust code generator and syn make of a simplified schema. *)
Inductive gres := GCode (code : str) | GInvalid | GPanic.

Section Rust.
Variable gen : comment * list (sdef F) -> gres.
(** OUT_DIR/mabo, mabo-build/src/lib.rs L146. *)
Variable out : path.
Definition rs_path (stem : str) : path := out ++ [stem ++ lit_str ".rs"].

(** mabo-build/src/lib.rs L199-215: generate and write one schema after the other. *)
Fixpoint emit (values : list (str * pschema F)) : list (path * str) * bexit :=
  match values with
  | [] => ([], BDone)
  | (stem, s) :: values' =>
      match simplify_schema chk s with
      | None => ([], BPanic)
      | Some o =>
          match gen o with
          | GPanic => ([], BPanic)
          | GInvalid => ([], BInvalidCode stem)
          | GCode code => let (ws, e) := emit values' in ((rs_path stem, code) :: ws, e)
          end
      end
  end.
(** mabo-build/src/lib.rs L142-218 [Compiler::compile]. *)
Definition compile (read : path -> option str) (files : list sfile) : list (path * str) * bexit :=
  match front read files with
  | CErr e => ([], BErr e)
  | CPanic => ([], BPanic)
  | COk values => emit values
  end.
End Rust.

Section Go.
(** crates/mabo-go/src/definition.rs L12-34: the text of one Go file. *)
Variable go_text : str -> comment -> list (sdef F) -> str.
(** The package name of Mabo.toml and the output directory. *)
Variable package : str.
Variable out : path.

(** mabo-go/src/definition.rs L36-60 [render_definition] (the outputs of modules) with
    mabo-go/src/main.rs L95-106 [write_output]: the files of a module are written below
    [parent]. *)
Fixpoint go_module (parent : path) (d : sdef F) : list (path * str) :=
  match d with
  | SModule c n ds =>
      (parent ++ [n; n ++ lit_str ".go"], go_text n c ds) :: flat_map (go_module (parent ++ [n])) ds
  | _ => []
  end.
(** mabo-go/src/definition.rs L12-34 [render_schema], mabo-go/src/main.rs L95-106: the root
    is named after the package. *)
Definition go_schema (o : comment * list (sdef F)) : list (path * str) :=
  (out ++ [package; package ++ lit_str ".go"], go_text package [] (snd o))
  :: flat_map (go_module (out ++ [package])) (snd o).
(** mabo-go/src/main.rs L73-78. *)
Fixpoint go_emit (values : list (str * pschema F)) : list (path * str) * bexit :=
  match values with
  | [] => ([], BDone)
  | (_, s) :: values' =>
      match simplify_schema chk s with
      | None => ([], BPanic)
      | Some o => let (ws, e) := go_emit values' in (go_schema o ++ ws, e)
      end
  end.
(** mabo-go/src/main.rs L16-93 [main], up to the call of gofmt. *)
Definition go_main (read : path -> option str) (files : list sfile) : list (path * str) * bexit :=
  match front read files with
  | CErr e => ([], BErr e)
  | CPanic => ([], BPanic)
  | COk values => go_emit values
  end.
End Go.

(** How a command of the command line tool ends (mabo-cli/src/main.rs L20-44). *)
Inductive status := Success | Failure | Crash.

(** mabo-cli/src/main.rs L46-56 [check]: the reported files and the exit status. *)
Fixpoint check (read : path -> option str) (files : list sfile) : list sfile * status :=
  match files with
  | [] => ([], Success)
  | f :: files' =>
      match read (f_path f) with
      | None => ([], Failure)
      | Some i =>
          let (reports, st) := check read files' in
          match schema_parse parse_f64 i with
          | None => (f :: reports, st)
          | Some _ => (reports, st)
          end
      end
  end.

(** One file system entry is replaced ([fs::write]). *)
Fixpoint path_eqb (a b : path) : bool :=
  match a, b with
  | [], [] => true
  | x :: a', y :: b' => str_eqb x y && path_eqb a' b'
  | _, _ => false
  end.
Definition put {C} (s : path -> option C) (p : path) (c : C) : path -> option C :=
  fun q => if path_eqb q p then Some c else s q.

(** mabo-cli/src/main.rs L58-77 [format]: the writes, the reported files and the exit status. *)
Fixpoint format (disk : path -> option str) (files : list sfile) : list (path * str) * list sfile * status :=
  match files with
  | [] => ([], [], Success)
  | f :: files' =>
      match disk (f_path f) with
      | None => ([], [], Failure)
      | Some buf =>
          match schema_parse parse_f64 buf with
          | None => let '(ws, reports, st) := format disk files' in (ws, f :: reports, st)
          | Some s =>
              let formatted := pr_schema fmt_f64 esc_u s in
              if str_eqb buf formatted then format disk files'
              else let '(ws, reports, st) := format (put disk (f_path f) formatted) files' in
                   ((f_path f, formatted) :: ws, reports, st)
          end
      end
  end.

(** * Documentation: crates/mabo-doc *)

(** A link: its text, and its target as a number of "../" followed by names. *)
Record link := Link { l_text : str; l_up : nat; l_to : list str }.
(** A page: the name of the item it describes, its links, and the depth of the stylesheet
    (base.html L7-8).  Simplification: nothing else of the HTML. *)
Record page := Page { pg_name : str; pg_links : list link; pg_style : nat }.

(** The name of an item, and of its page: mabo-doc/src/lib.rs L86-144 ([file]). *)
Definition item_name (d : sdef F) : option str :=
  match d with
  | SModule _ n _ | SStruct _ n _ _ | SEnum _ n _ _ | SAlias _ n _ _ | SConst _ n _ _ => Some n
  | SImport _ _ => None
  end.
Definition item_file (d : sdef F) : list str :=
  match d with
  | SModule _ n _ => [n; lit_str "index.html"]
  | SStruct _ n _ _ => [lit_str "struct." ++ n ++ lit_str ".html"]
  | SEnum _ n _ _ => [lit_str "enum." ++ n ++ lit_str ".html"]
  | SAlias _ n _ _ => [lit_str "alias." ++ n ++ lit_str ".html"]
  | SConst _ n _ _ => [lit_str "constant." ++ n ++ lit_str ".html"]
  | SImport _ _ => []
  end.
(** index.html L14-103, detail/module.html L20-109: the tables of items.  They are sorted by
    kind; the model keeps the order of the definitions. *)
Definition item_links (ds : list (sdef F)) : list link :=
  flat_map (fun d => match item_name d with Some n => [Link n 0 (item_file d)] | None => [] end) ds.
(** detail/*.html L9-11, templates.rs L221-237 [path_up]: the path above the title. *)
Definition crumb (len i : nat) (p : str) : link := Link p (len - i - 1) [lit_str "index.html"].
Definition crumbs (path_ : list str) (k : nat) : list link :=
  map (fun '(i, p) => crumb (length path_) i p) (combine (seq 0 k) path_).

(** mabo-doc/src/lib.rs L72-144 [render_definition] and mabo-cli/src/main.rs L94-106
    [write_doc_output]: the pages of a definition, below directory [parent]; [path_] is the path of
    module names. *)
Fixpoint doc_pages (parent : path) (path_ : list str) (d : sdef F) : list (path * page) :=
  match d with
  | SModule _ n ds =>
      let path_' := path_ ++ [n] in
      (parent ++ item_file d, Page n (crumbs path_' (length path_' - 1) ++ item_links ds) (length path_'))
      :: flat_map (doc_pages (parent ++ [n]) path_') ds
  | SImport _ _ => []
  | SStruct _ n _ _ | SEnum _ n _ _ | SAlias _ n _ _ | SConst _ n _ _ =>
      [(parent ++ item_file d, Page n (crumbs path_ (length path_)) (length path_))]
  end.
(** mabo-doc/src/lib.rs L38-70 [render_schema]; mabo-cli/src/main.rs L87-88. *)
Definition doc_schema (out : path) (stem : str) (ds : list (sdef F)) : list (path * page) :=
  let parent := out ++ [stem] in
  (parent ++ [stem; lit_str "index.html"], Page stem (item_links ds) 1)
  :: flat_map (doc_pages (parent ++ [stem]) [stem]) ds.
(** mabo-cli/src/main.rs L79-92 [doc]. *)
Fixpoint doc (out : path) (read : path -> option str) (files : list sfile) : list (path * page) * status :=
  match files with
  | [] => ([], Success)
  | f :: files' =>
      match read (f_path f) with
      | None => ([], Failure)
      | Some i =>
          match schema_parse parse_f64 i with
          | None => ([], Failure)
          | Some s =>
              match simplify_schema chk s with
              | None => ([], Crash)
              | Some (_, ds) =>
                  let (ws, st) := doc out read files' in (doc_schema out (f_stem f) ds ++ ws, st)
              end
          end
      end
  end.
End Tools.
