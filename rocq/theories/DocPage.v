(** The text of the documentation pages: crates/mabo-doc/templates and src/templates.rs.

    A page is a list of pieces: text of the template, inserted text (which askama escapes) and inserted HTML (the filters [markdown], [trim] and
    [safe]: made by comrak from a comment or from the size of a type; comrak is a parameter).  Askama's whitespace control is applied by hand:
    the examples in PropDocPage.v compare whole pages with the snapshots in crates/mabo-doc/tests/snapshots. *)
From Verif Require Import Base Syntax Parser Printer Compiler Meta Tools DocText.
Require Coq.Strings.String.
Import Coq.Strings.String.StringSyntax.
Local Open Scope N_scope.

Inductive piece := T (s : str) | E (s : str) | M (s : str).
(** askama's [Html] escaper (askama 0.15: numeric character references). *)
Definition escape_char (c : N) : str :=
  if c =? 34 then tx "&#34;" else if c =? 38 then tx "&#38;" else if c =? 39 then tx "&#39;"
  else if c =? 60 then tx "&#60;" else if c =? 62 then tx "&#62;" else [c].
Definition escape (s : str) : str := concat (map escape_char s).
Definition piece_text (p : piece) : str := match p with T s => s | E s => escape s | M s => s end.
Definition page_text (l : list piece) : str := concat (map piece_text l).

(** templates/base.html, with the title and the content of the page; [up] is [path.len()]. *)
Definition base_page (up : nat) (title : str) (content : list piece) : list piece :=
  [T (tx "<!DOCTYPE html>
<html lang=""en"">
  <head>
    <meta charset=""utf-8"" />
    <meta name=""viewport"" content=""width=device-width, initial-scale=1"" />

    
    <link rel=""stylesheet"" href="""); E (concat (repeat (tx "../") up));
   T (tx "assets/style.css"" />

    <title>"); E title; T (tx " - Mabo</title>
  </head>
  <body>
    <nav>
    </nav>
    <main>")] ++
  content ++
  [T (tx "
    </main>
  </body>
</html>")].

(** templates.rs L221-237 [path_up]; templates/detail/*.html L9-11. *)
Definition crumb_pieces (len i : nat) (p : str) : list piece :=
  [T (tx "<a href="""); E (concat (repeat (tx "../") (len - i - 1))); T (tx "index.html"">"); E p; T (tx "</a>::")].
Definition crumbs_pieces (path_ : list str) (k : nat) : list piece :=
  flat_map (fun '(i, p) => crumb_pieces (length path_) i p) (combine (seq 0 k) path_).

Section Pages.
Context {F : Type}.
Variable fmt_f64 : F -> str.
Variable esc_u : N -> bool.
(** [line.trim().is_empty()]. *)
Variable blank : str -> bool.
(** The filters [markdown] and [trim] on comments. *)
Variable markdown : str -> str.
(** The same, and [indent], on what [mabo_meta::WireSize::print] writes for a type. *)
Variable size_html : nat -> sty -> str.

Definition content_pieces (c : comment) : piece := M (markdown (merge_comments c)).
Definition short_pieces (c : comment) : piece := M (markdown (first_comment blank c)).

(** The part that the pages of items have in common: templates/detail/{struct,enum,alias,const}.html L5-18. *)
Definition head_pieces (word cls : str) (path_ : list str) (n : str) (shown : option str) (c : comment) : list piece :=
  [T (tx "
<div class=""section"">
  <h2>
    "); T word; T (tx "
    ")] ++ crumbs_pieces path_ (length path_) ++
  [T (tx "<span class=""name-"); T cls; T (tx """>"); E n; T (tx "</span>
  </h2>
  <pre class=""item-definition my-2"">"); E (match shown with Some s => s | None => [] end);
   T (tx "</pre>
  <div class=""markdown pl-6"">
    "); content_pieces c; T (tx "
  </div>
</div>")].

(** A field: templates/detail/struct.html L33-58 (pad empty) and enum.html L36-62; the size is left out for references. *)
Definition size_struct_pieces (t : sty) : list piece :=
  match wire_size t with
  | Some _ => [T (tx "
      <div class=""pl-4"">
        <h4 class=""my-2"">Metadata</h4>
        <div class=""text-sm"">
          <p>The size range is:</p>
          <div
            class=""markdown markdown-sm markdown-p:mb-1 markdown-ul:m-0 markdown-ul:pl-4 markdown-li:m-0 markdown-li:pl-0"">
            "); M (size_html 10 t); T (tx "
          </div>
        </div>
      </div>")]
  | None => []
  end.
Definition struct_field_pieces (f : sfield) : list piece :=
  [T (tx "
    <li class=""field-definition"">
      <code>
        <span class=""field-name"">"); E (sf_name f); T (tx "</span>:
        <span class=""field-type"">"); E (dp_type (sf_ty f)); T (tx "</span>
        <span class=""field-id"">@"); E (dec_str (sf_id f)); T (tx "</span>
      </code>
      <div class=""markdown pl-4"">
        "); content_pieces (sf_comment f); T (tx "
      </div>")] ++ size_struct_pieces (sf_ty f) ++ [T (tx "
    </li>")].
(** templates/detail/struct.html; mabo_meta::next_field_id (release build: the id after the largest 32-bit number wraps). *)
Definition struct_page (path_ : list str) (c : comment) (n : str) (g : list str) (fs : sfields) : list piece :=
  base_page (length path_) n
    (head_pieces (tx "Struct") (tx "struct") path_ n (shown_text fmt_f64 esc_u (SStruct c n g fs)) c ++
     [T (tx "
<div class=""section"">
  <h3>Metadata</h3>
  <div class=""pl-6 mt-2"">")] ++
     match next_field_id false fs with
     | Some (Some i) => [T (tx "
    <p>The next free ID is <code class=""font-bold"">"); E (dec_str i); T (tx "</code></p>")]
     | _ => []
     end ++
     [T (tx "
  </div>
</div>
<div class=""section"">
  <h3>Fields</h3>
  <ul>")] ++ flat_map struct_field_pieces (ss_fields fs) ++ [T (tx "
  </ul>
</div>
")]).

Definition size_enum_pieces (t : sty) : list piece :=
  match wire_size t with
  | Some _ => [T (tx "
            <div class=""pl-4"">
              <h4 class=""my-2"">Metadata</h4>
              <div class=""text-sm"">
                <p>The size range is:</p>
                <div
                  class=""markdown markdown-sm markdown-p:mb-1 markdown-ul:m-0 markdown-ul:pl-4 markdown-li:m-0 markdown-li:pl-0"">
                  "); M (size_html 16 t); T (tx "
                </div>
              </div>
            </div>")]
  | None => []
  end.
Definition enum_field_pieces (f : sfield) : list piece :=
  [T (tx "
          <li>
            <code>
              <span class=""field-name"">"); E (sf_name f); T (tx "</span>:
              <span class=""field-type"">"); E (dp_type (sf_ty f)); T (tx "</span>
              <span class=""field-id"">@"); E (dec_str (sf_id f)); T (tx "</span>
            </code>
            <div class=""markdown pl-4"">
              "); content_pieces (sf_comment f); T (tx "
            </div>")] ++ size_enum_pieces (sf_ty f) ++ [T (tx "
          </li>")].
Definition variant_fields_pieces (fs : sfields) : list piece :=
  match ss_kind fs with
  | SKUnit => []
  | _ => [T (tx "
      <div class=""pl-6"">
        <h4>Fields</h4>
        <ul>")] ++ flat_map enum_field_pieces (ss_fields fs) ++ [T (tx "
        </ul>
      </div>")]
  end.
Definition variant_pieces (v : svariant) : list piece :=
  [T (tx "
    <li class=""field-definition"">
      <code class=""name-variant text-lg"">
        <span class=""variant-name"">"); E (sv_name v); T (tx "</span>
        <span class=""variant-id"">@"); E (dec_str (sv_id v)); T (tx "</span>
      </code>
      <div class=""markdown pl-6"">
        "); content_pieces (sv_comment v); T (tx "
      </div>")] ++ variant_fields_pieces (sv_fields v) ++ [T (tx "
    </li>")].
(** templates/detail/enum.html. *)
Definition enum_page (path_ : list str) (c : comment) (n : str) (g : list str) (vs : list svariant) : list piece :=
  base_page (length path_) n
    (head_pieces (tx "Enum") (tx "enum") path_ n (shown_text fmt_f64 esc_u (SEnum c n g vs)) c ++
     [T (tx "
<div class=""section"">
  <h3>Variants</h3>
  <ul>")] ++ flat_map variant_pieces vs ++ [T (tx "
  </ul>
</div>
")]).
(** templates/detail/alias.html, const.html. *)
Definition alias_page (path_ : list str) (c : comment) (n : str) (g : list str) (t : sty) : list piece :=
  base_page (length path_) n (head_pieces (tx "Alias") (tx "alias") path_ n (shown_text fmt_f64 esc_u (SAlias c n g t)) c ++ [T (tx "
")]).
Definition const_page (path_ : list str) (c : comment) (n : str) (t : sty) (v : lit F) : list piece :=
  base_page (length path_) n (head_pieces (tx "Constant") (tx "const") path_ n (shown_text fmt_f64 esc_u (SConst c n t v)) c ++ [T (tx "
")]).

(** The tables: templates/index.html L14-103, detail/module.html L18-107.  One for every kind, with the definitions of that kind in order. *)
Inductive kind := KModule | KStruct | KEnum | KAlias | KConst.
Definition in_table (k : kind) (d : sdef F) : option (str * comment) :=
  match k, d with
  | KModule, SModule c n _ | KStruct, SStruct c n _ _ | KEnum, SEnum c n _ _ | KAlias, SAlias c n _ _ | KConst, SConst c n _ _ => Some (n, c)
  | _, _ => None
  end.
Definition kind_title (k : kind) : str :=
  match k with KModule => tx "Modules" | KStruct => tx "Structs" | KEnum => tx "Enums" | KAlias => tx "Aliases" | KConst => tx "Constants" end.
Definition kind_class (k : kind) : str :=
  match k with KModule => tx "module" | KStruct => tx "struct" | KEnum => tx "enum" | KAlias => tx "alias" | KConst => tx "const" end.
Definition kind_file (k : kind) : str * str :=
  match k with
  | KModule => ([], tx "/index.html") | KStruct => (tx "struct.", tx ".html") | KEnum => (tx "enum.", tx ".html") | KAlias => (tx "alias.", tx ".html")
  | KConst => (tx "constant.", tx ".html")
  end.
Definition row_pieces (k : kind) (d : sdef F) : list piece :=
  match in_table k d with
  | Some (n, c) => [T (tx "
    <tr>
      <td class=""pr-8"">
        <a class=""text-lg name-"); T (kind_class k); T (tx """ href="""); T (fst (kind_file k)); E n; T (snd (kind_file k)); T (tx """>"); E n; T (tx "</a>
      </td>
      <td>
        "); short_pieces c; T (tx "
      </td>
    </tr>")]
  | None => []
  end.
Definition table_pieces (ds : list (sdef F)) (k : kind) : list piece :=
  [T (tx "
<div class=""section"">
  <h3>"); T (kind_title k); T (tx "</h3>
  <table>")] ++ flat_map (row_pieces k) ds ++ [T (tx "
  </table>
</div>")].
Definition tables_pieces (ds : list (sdef F)) : list piece := flat_map (table_pieces ds) [KModule; KStruct; KEnum; KAlias; KConst].
(** templates/index.html. *)
Definition index_page (name : str) (c : comment) (ds : list (sdef F)) : list piece :=
  base_page 1 name
    ([T (tx "
<div class=""section"">
  <h2>Schema "); E name; T (tx "</h2>
  <div class=""markdown pl-6"">
    "); content_pieces c; T (tx "
  </div>
</div>")] ++ tables_pieces ds).
(** templates/detail/module.html; [path_] ends with the module itself. *)
Definition module_page (path_ : list str) (c : comment) (n : str) (ds : list (sdef F)) : list piece :=
  base_page (length path_) n
    ([T (tx "
<div class=""section"">
  <h2>
    Module
    ")] ++ crumbs_pieces path_ (length path_ - 1) ++ [T (tx "<span class=""name-module"">"); E n; T (tx "</span>
  </h2>
  <div class=""markdown pl-6"">
    "); content_pieces c; T (tx "
  </div>
</div>")] ++ tables_pieces ds).

(** mabo-doc/src/lib.rs L38-144 [render_schema], [render_definition] ... with mabo-cli/src/main.rs L94-106 [write_doc_output]: the files, where
    they are put, as in Tools.v ([doc_pages], [doc_schema]), with their pages. *)
Fixpoint page_files (parent : path) (path_ : list str) (d : sdef F) : list (path * list piece) :=
  match d with
  | SModule c n ds => (parent ++ item_file d, module_page (path_ ++ [n]) c n ds) :: flat_map (page_files (parent ++ [n]) (path_ ++ [n])) ds
  | SStruct c n g fs => [(parent ++ item_file d, struct_page path_ c n g fs)]
  | SEnum c n g vs => [(parent ++ item_file d, enum_page path_ c n g vs)]
  | SAlias c n g t => [(parent ++ item_file d, alias_page path_ c n g t)]
  | SConst c n t v => [(parent ++ item_file d, const_page path_ c n t v)]
  | SImport _ _ => []
  end.
Definition schema_files (out : path) (stem : str) (c : comment) (ds : list (sdef F)) : list (path * list piece) :=
  (out ++ [stem; stem; tx "index.html"], index_page stem c ds) :: flat_map (page_files (out ++ [stem; stem]) [stem]) ds.
End Pages.
