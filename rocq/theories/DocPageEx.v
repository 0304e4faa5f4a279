(** Whole pages compared with the snapshots of the tests: crates/mabo-doc/tests/snapshots (examples, not theorems). *)
From Verif Require Import Base Syntax Parser Printer Compiler Meta Tools DocText Html DocPage PropDocPage.
Require Coq.Strings.String.
Import Coq.Strings.String.StringSyntax.
Local Open Scope N_scope.

(** The renderer on the comments of these schemas (one paragraph of plain text), and on the sizes of their types. *)
Fixpoint trim_l (s : str) : str := match s with c :: r => if (c =? 32) || (c =? 10) then trim_l r else s | [] => [] end.
Definition ex_markdown (s : str) : str := match rev (trim_l (rev (trim_l s))) with [] => [] | t => page_text [T (tx "<p>"); E t; T (tx "</p>")] end.
Definition ex_range (t : sty) : str :=
  match t with SPrim PrU32 => tx "1..5" | SPrim PrU64 => tx "1..10" | SPrim PrBool => tx "1" | _ => [] end.
Definition ex_size (_ : nat) (t : sty) : str :=
  page_text [T (tx "<p><strong>"); E (dp_type t); T (tx "</strong> <code>"); E (ex_range t); T (tx "</code></p>")].
(** They meet the hypotheses of the theorem. *)
Lemma block_fragment lk ps : block lk [] ps [] (fun _ => []) -> fragment lk (page_text ps).
Proof.
  intros (l & H1 & H2 & H3). exists l. split; [exact H1|]. split; [exact H2|]. intros q t Hq H. specialize (H3 q [] Hq). rewrite app_nil_r in H3. cbn [app find] in H3.
  clear H1 H2 Hq. induction l as [|x l IH]; [destruct H|]. destruct H as [->|H].
  - cbn [find] in H3. destruct (strip (tag_of q) t); [discriminate|reflexivity].
  - apply IH; [|exact H]. destruct x as [c|u]; cbn [find] in H3; [exact H3|]. destruct (strip (tag_of q) u); [discriminate|exact H3].
Qed.
Lemma text_block lk s : block lk [] [T (tx "<p>"); E s; T (tx "</p>")] [] (fun _ => []).
Proof. leaf. Qed.
Lemma size_block lk s r : block lk [] [T (tx "<p><strong>"); E s; T (tx "</strong> <code>"); E r; T (tx "</code></p>")] [] (fun _ => []).
Proof. leaf. Qed.
Example ex_markdown_fragment : forall lk s, fragment lk (ex_markdown s).
Proof.
  intros lk s. unfold ex_markdown. destruct (rev _) as [|c t]; [|apply (block_fragment lk _ (text_block lk (c :: t)))]. exists []. split; [reflexivity|]. split; [reflexivity|]. intros q t _ [].
Qed.
Example ex_size_fragment : forall lk n t, fragment lk (ex_size n t).
Proof. intros lk n t. apply (block_fragment lk _ (size_block lk (dp_type t) (ex_range t))). Qed.
Definition ex_pages (stem src : str) : list (path * str) :=
  match schema_parse (F := unit) (fun _ => None) src with
  | Some p => match simplify_schema true p with
              | Some (c, ds) => map (fun '(q, pg) => (q, page_text pg)) (schema_files (fun _ => []) (fun c => (c <? 32) || (c =? 65039)) (fun l => match trim_l l with [] => true | _ => false end) ex_markdown ex_size [] stem c ds)
              | None => []
              end
  | None => []
  end.

Example pages_enum_basic : ex_pages (tx "enum_basic") (tx "/// Sample enum.
enum Sample {
    One @1,
    /// Second variant
    Two(u32 @1, u64 @2) @2,
    Three {
        field1: u32 @1,
        /// Second field of third variant
        field2: bool @2,
    } @3,
}
") = [
([tx "enum_basic"; tx "enum_basic"; tx "index.html"], tx "<!DOCTYPE html>
<html lang=""en"">
  <head>
    <meta charset=""utf-8"" />
    <meta name=""viewport"" content=""width=device-width, initial-scale=1"" />

    
    <link rel=""stylesheet"" href=""../assets/style.css"" />

    <title>enum_basic - Mabo</title>
  </head>
  <body>
    <nav>
    </nav>
    <main>
<div class=""section"">
  <h2>Schema enum_basic</h2>
  <div class=""markdown pl-6"">
    
  </div>
</div>
<div class=""section"">
  <h3>Modules</h3>
  <table>
  </table>
</div>
<div class=""section"">
  <h3>Structs</h3>
  <table>
  </table>
</div>
<div class=""section"">
  <h3>Enums</h3>
  <table>
    <tr>
      <td class=""pr-8"">
        <a class=""text-lg name-enum"" href=""enum.Sample.html"">Sample</a>
      </td>
      <td>
        <p>Sample enum.</p>
      </td>
    </tr>
  </table>
</div>
<div class=""section"">
  <h3>Aliases</h3>
  <table>
  </table>
</div>
<div class=""section"">
  <h3>Constants</h3>
  <table>
  </table>
</div>
    </main>
  </body>
</html>");
([tx "enum_basic"; tx "enum_basic"; tx "enum.Sample.html"], tx "<!DOCTYPE html>
<html lang=""en"">
  <head>
    <meta charset=""utf-8"" />
    <meta name=""viewport"" content=""width=device-width, initial-scale=1"" />

    
    <link rel=""stylesheet"" href=""../assets/style.css"" />

    <title>Sample - Mabo</title>
  </head>
  <body>
    <nav>
    </nav>
    <main>
<div class=""section"">
  <h2>
    Enum
    <a href=""index.html"">enum_basic</a>::<span class=""name-enum"">Sample</span>
  </h2>
  <pre class=""item-definition my-2"">enum Sample {
    One @1,
    Two(u32 @1, u64 @2) @2,
    Three {
        field1: u32 @1,
        field2: bool @2,
    } @3,
}</pre>
  <div class=""markdown pl-6"">
    <p>Sample enum.</p>
  </div>
</div>
<div class=""section"">
  <h3>Variants</h3>
  <ul>
    <li class=""field-definition"">
      <code class=""name-variant text-lg"">
        <span class=""variant-name"">One</span>
        <span class=""variant-id"">@1</span>
      </code>
      <div class=""markdown pl-6"">
        
      </div>
    </li>
    <li class=""field-definition"">
      <code class=""name-variant text-lg"">
        <span class=""variant-name"">Two</span>
        <span class=""variant-id"">@2</span>
      </code>
      <div class=""markdown pl-6"">
        <p>Second variant</p>
      </div>
      <div class=""pl-6"">
        <h4>Fields</h4>
        <ul>
          <li>
            <code>
              <span class=""field-name"">n0</span>:
              <span class=""field-type"">u32</span>
              <span class=""field-id"">@1</span>
            </code>
            <div class=""markdown pl-4"">
              
            </div>
            <div class=""pl-4"">
              <h4 class=""my-2"">Metadata</h4>
              <div class=""text-sm"">
                <p>The size range is:</p>
                <div
                  class=""markdown markdown-sm markdown-p:mb-1 markdown-ul:m-0 markdown-ul:pl-4 markdown-li:m-0 markdown-li:pl-0"">
                  <p><strong>u32</strong> <code>1..5</code></p>
                </div>
              </div>
            </div>
          </li>
          <li>
            <code>
              <span class=""field-name"">n1</span>:
              <span class=""field-type"">u64</span>
              <span class=""field-id"">@2</span>
            </code>
            <div class=""markdown pl-4"">
              
            </div>
            <div class=""pl-4"">
              <h4 class=""my-2"">Metadata</h4>
              <div class=""text-sm"">
                <p>The size range is:</p>
                <div
                  class=""markdown markdown-sm markdown-p:mb-1 markdown-ul:m-0 markdown-ul:pl-4 markdown-li:m-0 markdown-li:pl-0"">
                  <p><strong>u64</strong> <code>1..10</code></p>
                </div>
              </div>
            </div>
          </li>
        </ul>
      </div>
    </li>
    <li class=""field-definition"">
      <code class=""name-variant text-lg"">
        <span class=""variant-name"">Three</span>
        <span class=""variant-id"">@3</span>
      </code>
      <div class=""markdown pl-6"">
        
      </div>
      <div class=""pl-6"">
        <h4>Fields</h4>
        <ul>
          <li>
            <code>
              <span class=""field-name"">field1</span>:
              <span class=""field-type"">u32</span>
              <span class=""field-id"">@1</span>
            </code>
            <div class=""markdown pl-4"">
              
            </div>
            <div class=""pl-4"">
              <h4 class=""my-2"">Metadata</h4>
              <div class=""text-sm"">
                <p>The size range is:</p>
                <div
                  class=""markdown markdown-sm markdown-p:mb-1 markdown-ul:m-0 markdown-ul:pl-4 markdown-li:m-0 markdown-li:pl-0"">
                  <p><strong>u32</strong> <code>1..5</code></p>
                </div>
              </div>
            </div>
          </li>
          <li>
            <code>
              <span class=""field-name"">field2</span>:
              <span class=""field-type"">bool</span>
              <span class=""field-id"">@2</span>
            </code>
            <div class=""markdown pl-4"">
              <p>Second field of third variant</p>
            </div>
            <div class=""pl-4"">
              <h4 class=""my-2"">Metadata</h4>
              <div class=""text-sm"">
                <p>The size range is:</p>
                <div
                  class=""markdown markdown-sm markdown-p:mb-1 markdown-ul:m-0 markdown-ul:pl-4 markdown-li:m-0 markdown-li:pl-0"">
                  <p><strong>bool</strong> <code>1</code></p>
                </div>
              </div>
            </div>
          </li>
        </ul>
      </div>
    </li>
  </ul>
</div>

    </main>
  </body>
</html>")].
Proof. vm_compute. reflexivity. Qed.

Example pages_module_basic : ex_pages (tx "module_basic") (tx "mod a {
    /// Inner module
    mod b {
        enum Sample {
            One @1,
        }
    }

    struct Sample {
        value: u32 @1,
        inner: b::Sample @2,
    }
}
") = [
([tx "module_basic"; tx "module_basic"; tx "index.html"], tx "<!DOCTYPE html>
<html lang=""en"">
  <head>
    <meta charset=""utf-8"" />
    <meta name=""viewport"" content=""width=device-width, initial-scale=1"" />

    
    <link rel=""stylesheet"" href=""../assets/style.css"" />

    <title>module_basic - Mabo</title>
  </head>
  <body>
    <nav>
    </nav>
    <main>
<div class=""section"">
  <h2>Schema module_basic</h2>
  <div class=""markdown pl-6"">
    
  </div>
</div>
<div class=""section"">
  <h3>Modules</h3>
  <table>
    <tr>
      <td class=""pr-8"">
        <a class=""text-lg name-module"" href=""a/index.html"">a</a>
      </td>
      <td>
        
      </td>
    </tr>
  </table>
</div>
<div class=""section"">
  <h3>Structs</h3>
  <table>
  </table>
</div>
<div class=""section"">
  <h3>Enums</h3>
  <table>
  </table>
</div>
<div class=""section"">
  <h3>Aliases</h3>
  <table>
  </table>
</div>
<div class=""section"">
  <h3>Constants</h3>
  <table>
  </table>
</div>
    </main>
  </body>
</html>");
([tx "module_basic"; tx "module_basic"; tx "a"; tx "index.html"], tx "<!DOCTYPE html>
<html lang=""en"">
  <head>
    <meta charset=""utf-8"" />
    <meta name=""viewport"" content=""width=device-width, initial-scale=1"" />

    
    <link rel=""stylesheet"" href=""../../assets/style.css"" />

    <title>a - Mabo</title>
  </head>
  <body>
    <nav>
    </nav>
    <main>
<div class=""section"">
  <h2>
    Module
    <a href=""../index.html"">module_basic</a>::<span class=""name-module"">a</span>
  </h2>
  <div class=""markdown pl-6"">
    
  </div>
</div>
<div class=""section"">
  <h3>Modules</h3>
  <table>
    <tr>
      <td class=""pr-8"">
        <a class=""text-lg name-module"" href=""b/index.html"">b</a>
      </td>
      <td>
        <p>Inner module</p>
      </td>
    </tr>
  </table>
</div>
<div class=""section"">
  <h3>Structs</h3>
  <table>
    <tr>
      <td class=""pr-8"">
        <a class=""text-lg name-struct"" href=""struct.Sample.html"">Sample</a>
      </td>
      <td>
        
      </td>
    </tr>
  </table>
</div>
<div class=""section"">
  <h3>Enums</h3>
  <table>
  </table>
</div>
<div class=""section"">
  <h3>Aliases</h3>
  <table>
  </table>
</div>
<div class=""section"">
  <h3>Constants</h3>
  <table>
  </table>
</div>
    </main>
  </body>
</html>");
([tx "module_basic"; tx "module_basic"; tx "a"; tx "b"; tx "index.html"], tx "<!DOCTYPE html>
<html lang=""en"">
  <head>
    <meta charset=""utf-8"" />
    <meta name=""viewport"" content=""width=device-width, initial-scale=1"" />

    
    <link rel=""stylesheet"" href=""../../../assets/style.css"" />

    <title>b - Mabo</title>
  </head>
  <body>
    <nav>
    </nav>
    <main>
<div class=""section"">
  <h2>
    Module
    <a href=""../../index.html"">module_basic</a>::<a href=""../index.html"">a</a>::<span class=""name-module"">b</span>
  </h2>
  <div class=""markdown pl-6"">
    <p>Inner module</p>
  </div>
</div>
<div class=""section"">
  <h3>Modules</h3>
  <table>
  </table>
</div>
<div class=""section"">
  <h3>Structs</h3>
  <table>
  </table>
</div>
<div class=""section"">
  <h3>Enums</h3>
  <table>
    <tr>
      <td class=""pr-8"">
        <a class=""text-lg name-enum"" href=""enum.Sample.html"">Sample</a>
      </td>
      <td>
        
      </td>
    </tr>
  </table>
</div>
<div class=""section"">
  <h3>Aliases</h3>
  <table>
  </table>
</div>
<div class=""section"">
  <h3>Constants</h3>
  <table>
  </table>
</div>
    </main>
  </body>
</html>");
([tx "module_basic"; tx "module_basic"; tx "a"; tx "b"; tx "enum.Sample.html"], tx "<!DOCTYPE html>
<html lang=""en"">
  <head>
    <meta charset=""utf-8"" />
    <meta name=""viewport"" content=""width=device-width, initial-scale=1"" />

    
    <link rel=""stylesheet"" href=""../../../assets/style.css"" />

    <title>Sample - Mabo</title>
  </head>
  <body>
    <nav>
    </nav>
    <main>
<div class=""section"">
  <h2>
    Enum
    <a href=""../../index.html"">module_basic</a>::<a href=""../index.html"">a</a>::<a href=""index.html"">b</a>::<span class=""name-enum"">Sample</span>
  </h2>
  <pre class=""item-definition my-2"">enum Sample {
    One @1,
}</pre>
  <div class=""markdown pl-6"">
    
  </div>
</div>
<div class=""section"">
  <h3>Variants</h3>
  <ul>
    <li class=""field-definition"">
      <code class=""name-variant text-lg"">
        <span class=""variant-name"">One</span>
        <span class=""variant-id"">@1</span>
      </code>
      <div class=""markdown pl-6"">
        
      </div>
    </li>
  </ul>
</div>

    </main>
  </body>
</html>");
([tx "module_basic"; tx "module_basic"; tx "a"; tx "struct.Sample.html"], tx "<!DOCTYPE html>
<html lang=""en"">
  <head>
    <meta charset=""utf-8"" />
    <meta name=""viewport"" content=""width=device-width, initial-scale=1"" />

    
    <link rel=""stylesheet"" href=""../../assets/style.css"" />

    <title>Sample - Mabo</title>
  </head>
  <body>
    <nav>
    </nav>
    <main>
<div class=""section"">
  <h2>
    Struct
    <a href=""../index.html"">module_basic</a>::<a href=""index.html"">a</a>::<span class=""name-struct"">Sample</span>
  </h2>
  <pre class=""item-definition my-2"">struct Sample {
    value: u32 @1,
    inner: b::Sample @2,
}</pre>
  <div class=""markdown pl-6"">
    
  </div>
</div>
<div class=""section"">
  <h3>Metadata</h3>
  <div class=""pl-6 mt-2"">
    <p>The next free ID is <code class=""font-bold"">3</code></p>
  </div>
</div>
<div class=""section"">
  <h3>Fields</h3>
  <ul>
    <li class=""field-definition"">
      <code>
        <span class=""field-name"">value</span>:
        <span class=""field-type"">u32</span>
        <span class=""field-id"">@1</span>
      </code>
      <div class=""markdown pl-4"">
        
      </div>
      <div class=""pl-4"">
        <h4 class=""my-2"">Metadata</h4>
        <div class=""text-sm"">
          <p>The size range is:</p>
          <div
            class=""markdown markdown-sm markdown-p:mb-1 markdown-ul:m-0 markdown-ul:pl-4 markdown-li:m-0 markdown-li:pl-0"">
            <p><strong>u32</strong> <code>1..5</code></p>
          </div>
        </div>
      </div>
    </li>
    <li class=""field-definition"">
      <code>
        <span class=""field-name"">inner</span>:
        <span class=""field-type"">b::Sample</span>
        <span class=""field-id"">@2</span>
      </code>
      <div class=""markdown pl-4"">
        
      </div>
    </li>
  </ul>
</div>

    </main>
  </body>
</html>")].
Proof. vm_compute. reflexivity. Qed.

Example pages_struct_generics : ex_pages (tx "struct_generics") (tx "/// Generic key-value pair.
struct KeyValue<K, V> {
    key: K @1,
    value: V @2,
}
") = [
([tx "struct_generics"; tx "struct_generics"; tx "index.html"], tx "<!DOCTYPE html>
<html lang=""en"">
  <head>
    <meta charset=""utf-8"" />
    <meta name=""viewport"" content=""width=device-width, initial-scale=1"" />

    
    <link rel=""stylesheet"" href=""../assets/style.css"" />

    <title>struct_generics - Mabo</title>
  </head>
  <body>
    <nav>
    </nav>
    <main>
<div class=""section"">
  <h2>Schema struct_generics</h2>
  <div class=""markdown pl-6"">
    
  </div>
</div>
<div class=""section"">
  <h3>Modules</h3>
  <table>
  </table>
</div>
<div class=""section"">
  <h3>Structs</h3>
  <table>
    <tr>
      <td class=""pr-8"">
        <a class=""text-lg name-struct"" href=""struct.KeyValue.html"">KeyValue</a>
      </td>
      <td>
        <p>Generic key-value pair.</p>
      </td>
    </tr>
  </table>
</div>
<div class=""section"">
  <h3>Enums</h3>
  <table>
  </table>
</div>
<div class=""section"">
  <h3>Aliases</h3>
  <table>
  </table>
</div>
<div class=""section"">
  <h3>Constants</h3>
  <table>
  </table>
</div>
    </main>
  </body>
</html>");
([tx "struct_generics"; tx "struct_generics"; tx "struct.KeyValue.html"], tx "<!DOCTYPE html>
<html lang=""en"">
  <head>
    <meta charset=""utf-8"" />
    <meta name=""viewport"" content=""width=device-width, initial-scale=1"" />

    
    <link rel=""stylesheet"" href=""../assets/style.css"" />

    <title>KeyValue - Mabo</title>
  </head>
  <body>
    <nav>
    </nav>
    <main>
<div class=""section"">
  <h2>
    Struct
    <a href=""index.html"">struct_generics</a>::<span class=""name-struct"">KeyValue</span>
  </h2>
  <pre class=""item-definition my-2"">struct KeyValue&#60;K, V&#62; {
    key: K @1,
    value: V @2,
}</pre>
  <div class=""markdown pl-6"">
    <p>Generic key-value pair.</p>
  </div>
</div>
<div class=""section"">
  <h3>Metadata</h3>
  <div class=""pl-6 mt-2"">
    <p>The next free ID is <code class=""font-bold"">3</code></p>
  </div>
</div>
<div class=""section"">
  <h3>Fields</h3>
  <ul>
    <li class=""field-definition"">
      <code>
        <span class=""field-name"">key</span>:
        <span class=""field-type"">K</span>
        <span class=""field-id"">@1</span>
      </code>
      <div class=""markdown pl-4"">
        
      </div>
    </li>
    <li class=""field-definition"">
      <code>
        <span class=""field-name"">value</span>:
        <span class=""field-type"">V</span>
        <span class=""field-id"">@2</span>
      </code>
      <div class=""markdown pl-4"">
        
      </div>
    </li>
  </ul>
</div>

    </main>
  </body>
</html>")].
Proof. vm_compute. reflexivity. Qed.

Example pages_const_string : ex_pages (tx "const_string") (tx "const SIMPLE: string = ""value"";

const NEWLINE_ESCAPE: string = ""one \
    two \
    three\
"";

const ESCAPES: string = ""escape basics \r\n \t \b \f \\ \""\
    hello\"" \n\
    unicode \u{2764}  \
    emoji " ++ [10084] ++ tx " \
"";

const MULTILINE: string = ""a
    b
    c
"";
") = [
([tx "const_string"; tx "const_string"; tx "index.html"], tx "<!DOCTYPE html>
<html lang=""en"">
  <head>
    <meta charset=""utf-8"" />
    <meta name=""viewport"" content=""width=device-width, initial-scale=1"" />

    
    <link rel=""stylesheet"" href=""../assets/style.css"" />

    <title>const_string - Mabo</title>
  </head>
  <body>
    <nav>
    </nav>
    <main>
<div class=""section"">
  <h2>Schema const_string</h2>
  <div class=""markdown pl-6"">
    
  </div>
</div>
<div class=""section"">
  <h3>Modules</h3>
  <table>
  </table>
</div>
<div class=""section"">
  <h3>Structs</h3>
  <table>
  </table>
</div>
<div class=""section"">
  <h3>Enums</h3>
  <table>
  </table>
</div>
<div class=""section"">
  <h3>Aliases</h3>
  <table>
  </table>
</div>
<div class=""section"">
  <h3>Constants</h3>
  <table>
    <tr>
      <td class=""pr-8"">
        <a class=""text-lg name-const"" href=""constant.SIMPLE.html"">SIMPLE</a>
      </td>
      <td>
        
      </td>
    </tr>
    <tr>
      <td class=""pr-8"">
        <a class=""text-lg name-const"" href=""constant.NEWLINE_ESCAPE.html"">NEWLINE_ESCAPE</a>
      </td>
      <td>
        
      </td>
    </tr>
    <tr>
      <td class=""pr-8"">
        <a class=""text-lg name-const"" href=""constant.ESCAPES.html"">ESCAPES</a>
      </td>
      <td>
        
      </td>
    </tr>
    <tr>
      <td class=""pr-8"">
        <a class=""text-lg name-const"" href=""constant.MULTILINE.html"">MULTILINE</a>
      </td>
      <td>
        
      </td>
    </tr>
  </table>
</div>
    </main>
  </body>
</html>");
([tx "const_string"; tx "const_string"; tx "constant.SIMPLE.html"], tx "<!DOCTYPE html>
<html lang=""en"">
  <head>
    <meta charset=""utf-8"" />
    <meta name=""viewport"" content=""width=device-width, initial-scale=1"" />

    
    <link rel=""stylesheet"" href=""../assets/style.css"" />

    <title>SIMPLE - Mabo</title>
  </head>
  <body>
    <nav>
    </nav>
    <main>
<div class=""section"">
  <h2>
    Constant
    <a href=""index.html"">const_string</a>::<span class=""name-const"">SIMPLE</span>
  </h2>
  <pre class=""item-definition my-2"">const SIMPLE: string = &#34;value&#34;;</pre>
  <div class=""markdown pl-6"">
    
  </div>
</div>

    </main>
  </body>
</html>");
([tx "const_string"; tx "const_string"; tx "constant.NEWLINE_ESCAPE.html"], tx "<!DOCTYPE html>
<html lang=""en"">
  <head>
    <meta charset=""utf-8"" />
    <meta name=""viewport"" content=""width=device-width, initial-scale=1"" />

    
    <link rel=""stylesheet"" href=""../assets/style.css"" />

    <title>NEWLINE_ESCAPE - Mabo</title>
  </head>
  <body>
    <nav>
    </nav>
    <main>
<div class=""section"">
  <h2>
    Constant
    <a href=""index.html"">const_string</a>::<span class=""name-const"">NEWLINE_ESCAPE</span>
  </h2>
  <pre class=""item-definition my-2"">const NEWLINE_ESCAPE: string = &#34;one two three&#34;;</pre>
  <div class=""markdown pl-6"">
    
  </div>
</div>

    </main>
  </body>
</html>");
([tx "const_string"; tx "const_string"; tx "constant.ESCAPES.html"], tx "<!DOCTYPE html>
<html lang=""en"">
  <head>
    <meta charset=""utf-8"" />
    <meta name=""viewport"" content=""width=device-width, initial-scale=1"" />

    
    <link rel=""stylesheet"" href=""../assets/style.css"" />

    <title>ESCAPES - Mabo</title>
  </head>
  <body>
    <nav>
    </nav>
    <main>
<div class=""section"">
  <h2>
    Constant
    <a href=""index.html"">const_string</a>::<span class=""name-const"">ESCAPES</span>
  </h2>
  <pre class=""item-definition my-2"">const ESCAPES: string = &#34;escape basics \r\n \t \u{8} \u{c} \\ \&#34;hello\&#34; \nunicode " ++ [10084] ++ tx "  emoji " ++ [10084] ++ tx " &#34;;</pre>
  <div class=""markdown pl-6"">
    
  </div>
</div>

    </main>
  </body>
</html>");
([tx "const_string"; tx "const_string"; tx "constant.MULTILINE.html"], tx "<!DOCTYPE html>
<html lang=""en"">
  <head>
    <meta charset=""utf-8"" />
    <meta name=""viewport"" content=""width=device-width, initial-scale=1"" />

    
    <link rel=""stylesheet"" href=""../assets/style.css"" />

    <title>MULTILINE - Mabo</title>
  </head>
  <body>
    <nav>
    </nav>
    <main>
<div class=""section"">
  <h2>
    Constant
    <a href=""index.html"">const_string</a>::<span class=""name-const"">MULTILINE</span>
  </h2>
  <pre class=""item-definition my-2"">const MULTILINE: string = &#34;a\n    b\n    c\n&#34;;</pre>
  <div class=""markdown pl-6"">
    
  </div>
</div>

    </main>
  </body>
</html>")].
Proof. vm_compute. reflexivity. Qed.
