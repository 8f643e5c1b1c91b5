(** Conformance of the model with the documentation: docs/index.md. Each script is rendered by the model, in
    the environment of ConfRef.v, and the outcome is compared with the one printed in the documentation below
    the script (the number in the name is the line of the output). Examples only; no theorem depends on them.
    Left out: line 384 (the printed output differs from the script in the case of a letter) and line 1856
    (needs a Python function that selects nodes). *)
From Coq Require Import List NArith ZArith String.
From Verif Require Import PyStr Builtins Value Ref ConfRef.
Import ListNotations.
Local Open Scope string_scope.
Local Open Scope list_scope.
Local Open Scope N_scope.

Example docs_line_229 : same strip (conf_render [] false (u "ul
    li 
        | This is the first item of a ""ul"" list.
        | Pipe (|) marks a plain-text block. HTML is auto-escaped: & < >
    li
        / This is the second item. 
          Slash (/) marks a <b>markup block</b> (no HTML escaping).
          Text blocks may consist of multiple lines, like here.
")) (u "<ul>
    <li>
        This is the first item of a ""ul"" list.
        Pipe (|) marks a plain-text block. HTML is auto-escaped: &amp; &lt; &gt;
    </li>
    <li>
        This is the second item.
        Slash (/) marks a <b>markup block</b> (no HTML escaping).
        Text blocks may consist of multiple lines, like here.
    </li>
</ul>") = true.
Proof. vm_compute. reflexivity. Qed.

Example docs_line_268 : same strip (conf_render [] false (u "ul
    li 
        | This is the first item of a ""ul"" list.
    li
        | This is the second item. 
")) (u "<ul>
    <li>
        This is the first item of a ""ul"" list.
    </li>
    <li>
        This is the second item.
    </li>
</ul>") = true.
Proof. vm_compute. reflexivity. Qed.

Example docs_line_297 : same strip (conf_render [] false (u "| Plain-text block may contain {'em'+'bedded'} expressions & its output is HTML-escaped.
/ Markup block may contain expressions; output is not escaped, so <b>raw tags</b> can be used.
! In a verbatim $block$ {expressions} are left unparsed, no <escaping> is done.
")) (u "Plain-text block may contain embedded expressions &amp; its output is HTML-escaped.
Markup block may contain expressions; output is not escaped, so <b>raw tags</b> can be used.
In a verbatim $block$ {expressions} are left unparsed, no <escaping> is done.") = true.
Proof. vm_compute. reflexivity. Qed.

Example docs_line_368 : same strip (conf_render [] false (u "i   | word1
... | word2
... b | word3
")) (u "<i>word1</i>word2<b>word3</b>") = true.
Proof. vm_compute. reflexivity. Qed.

Example docs_line_400 : same strip (conf_render [] false (u "p
    ... | Using ""..."" modifier, a block with no predecessors
    ... |  can be inlined into its parent.
")) (u "<p>Using ""..."" modifier, a block with no predecessors can be inlined into its parent.</p>") = true.
Proof. vm_compute. reflexivity. Qed.

Example docs_line_414 : same strip (conf_render [] false (u "div
    < p
        < i | This line's output indentation is equal to the parent's and grandparent's.
")) (u "<div>
<p>
<i>This line's output indentation is equal to the parent's and grandparent's.</i>
</p>
</div>") = true.
Proof. vm_compute. reflexivity. Qed.

Example docs_line_435 : same strip (conf_render [] false (u "div
  dedent
    div
      p
        | Everything inside ""dedent"" is de-indented up to the level
          of ""dedent"" block itself.
")) (u "<div>
  <div>
  <p>
  Everything inside ""dedent"" is de-indented up to the level
  of ""dedent"" block itself.
  </p>
  </div>
</div>") = true.
Proof. vm_compute. reflexivity. Qed.

Example docs_line_485 : same strip (conf_render [] false (u "h1 | This is inline text, no surrounding newlines are printed in the output.
p
   / These are sub-blocks of an outline content...
   | ...of the parent paragraph block.
")) (u "<h1>This is inline text, no surrounding newlines are printed in the output.</h1>
<p>
   These are sub-blocks of an outline content...
   ...of the parent paragraph block.
</p>") = true.
Proof. vm_compute. reflexivity. Qed.

Example docs_line_502 : same strip (conf_render [] false (u "div: | This inline text is followed by a sub-block ""p"".
  p
    i | Line 1
    b | Line 2
")) (u "<div>This inline text is followed by a sub-block ""p"".
  <p>
    <i>Line 1</i>
    <b>Line 2</b>
  </p></div>") = true.
Proof. vm_compute. reflexivity. Qed.

Example docs_line_518 : same strip (conf_render [] false (u "div |
  Line 1
  Line 2
")) (u "<div>
Line 1
Line 2
</div>") = true.
Proof. vm_compute. reflexivity. Qed.

Example docs_line_535 : same strip (conf_render [] false (u "p
    i | text
p:
    i | text
")) (u "<p>
    <i>text</i>
</p>
<p>
    <i>text</i>
</p>") = true.
Proof. vm_compute. reflexivity. Qed.

Example docs_line_555 : same strip (conf_render [] false (u "p
  i | This line is in italics ...
  . | ... and this one is not, but both are vertically aligned in the script.
  . | The null tag helps with code alignment when a tag is missing.
")) (u "<p>
  <i>This line is in italics ...</i>
  ... and this one is not, but both are vertically aligned in the script.
  The null tag helps with code alignment when a tag is missing.
</p>") = true.
Proof. vm_compute. reflexivity. Qed.

Example docs_line_579 : same strip (conf_render [] false (u "h1 | This is inline text, no surrounding newlines are printed.
p  | This paragraph is ""inline"" and ""multiline"" at the same time,
     it continues on subsequent lines without additional ""|"" markers.
div |
  Another way to write a multiline text-only block: with initial ""|"" marker
  in the headline followed by lines of text and no more markers.
")) (u "<h1>This is inline text, no surrounding newlines are printed.</h1>
<p>This paragraph is ""inline"" and ""multiline"" at the same time,
it continues on subsequent lines without additional ""|"" markers.</p>
<div>
Another way to write a multiline text-only block: with initial ""|"" marker
in the headline followed by lines of text and no more markers.
</div>") = true.
Proof. vm_compute. reflexivity. Qed.

Example docs_line_601 : same strip (conf_render [] false (u "div: | This inline text can be follow by nested blocks thanks to the "":"" marker
  p
    i | This line is in italics ...
    . | ... and this one is not. Both are vertically aligned in the script.
    . | The null tag helps with code alignment when a tag is missing.
")) (u "<div>This inline text can be follow by nested blocks thanks to the "":"" marker
  <p>
    <i>This line is in italics ...</i>
    ... and this one is not. Both are vertically aligned in the script.
    The null tag helps with code alignment when a tag is missing.
  </p></div>") = true.
Proof. vm_compute. reflexivity. Qed.

Example docs_line_640 : same strip (conf_render [] false (u "p #main-content .wide-paragraph | text...
")) (u "<p id=""main-content"" class=""wide-paragraph"">text...</p>") = true.
Proof. vm_compute. reflexivity. Qed.

Example docs_line_652 : same strip (conf_render [] false (u "p .wide .left .green-text
")) (u "<p class=""wide left green-text""></p>") = true.
Proof. vm_compute. reflexivity. Qed.

Example docs_line_672 : same strip (conf_render [] false (u "$ k = 3
$ name = ""Ala""
| The name repeated $k times is: {name * k}
| The third character of the name is: ""$name[2]""
")) (u "The name repeated 3 times is: AlaAlaAla
The third character of the name is: ""a""") = true.
Proof. vm_compute. reflexivity. Qed.

Example docs_line_890 : same strip (conf_render [] false (u "div " ++ [261; 322; 281] ++ u "_" ++ [378; 243] ++ u ":1-x = ''
div " ++ [63745; 63746] ++ u "-" ++ [63747; 63748] ++ u " = ''
")) (u "<div " ++ [261; 322; 281] ++ u "_" ++ [378; 243] ++ u ":1-x=""""></div>
<div " ++ [63745; 63746] ++ u "-" ++ [63747; 63748] ++ u "=""""></div>") = true.
Proof. vm_compute. reflexivity. Qed.

Example docs_line_918 : same strip (conf_render [] false (u "for i in [1,2,3]:
    i | number $i
")) (u "<i>number 1</i>
<i>number 2</i>
<i>number 3</i>") = true.
Proof. vm_compute. reflexivity. Qed.

Example docs_line_1164 : same strip (conf_render [] false (u "% tableRow name price='UNKNOWN'
    tr        
        td | $name
        td | $price
table
    tableRow 'Porsche'  '200,000'
    tableRow 'Jaguar'   '150,000'
    tableRow 'Maserati' '300,000'
    tableRow name='Cybertruck'
")) (u "<table>
    <tr>
        <td>Porsche</td>
        <td>200,000</td>
    </tr>
    <tr>
        <td>Jaguar</td>
        <td>150,000</td>
    </tr>
    <tr>
        <td>Maserati</td>
        <td>300,000</td>
    </tr>
    <tr>
        <td>Cybertruck</td>
        <td>UNKNOWN</td>
    </tr>
</table>") = true.
Proof. vm_compute. reflexivity. Qed.

Example docs_line_1266 : same strip (conf_render [] false (u "% tableRow @info name price='UNKNOWN'
    tr
        td | $name
        td | $price
        td
           @ info           # inline form can be used as well:  td @ info
table
    tableRow 'Porsche' '200,000'
        img src=""porsche.jpg""
        / If you insist on <s>air conditioning</s>, " ++ [129300] ++ u "
        / you can always hit the track and roll down the window at <u>160 mph</u>. " ++ [128526] ++ u " 
    tableRow 'Jaguar' '150,000'
        img src=""jaguar.jpg""
        b | Money may not buy happiness, but I'd rather cry in a Jaguar than on a bus.
    tableRow 'Cybertruck'
        | If you liked Minecraft you will like this one, too.
        / (Honestly, I did it for the memes. <i>Elon Musk</i>)
")) (u "<table>
    <tr>
        <td>Porsche</td>
        <td>200,000</td>
        <td>
           <img src=""porsche.jpg"" />
           If you insist on <s>air conditioning</s>, " ++ [129300] ++ u "
           you can always hit the track and roll down the window at <u>160 mph</u>. " ++ [128526] ++ u "
        </td>
    </tr>
    <tr>
        <td>Jaguar</td>
        <td>150,000</td>
        <td>
           <img src=""jaguar.jpg"" />
           <b>Money may not buy happiness, but I'd rather cry in a Jaguar than on a bus.</b>
        </td>
    </tr>
    <tr>
        <td>Cybertruck</td>
        <td>UNKNOWN</td>
        <td>
           If you liked Minecraft you will like this one, too.
           (Honestly, I did it for the memes. <i>Elon Musk</i>)
        </td>
    </tr>
</table>") = true.
Proof. vm_compute. reflexivity. Qed.

Example docs_line_1457 : same strip (conf_render [] false (u "for i in [1,2,3]  | $i

for i in [1,2,3]:
    li | item no. $i

$s = 'abc'
while len(s) > 0               -- Python built-ins (""len"") can be used
    | letter ""$s[0]""
    $s = s[1:]                 -- assignments can occur inside loops
")) (u "123

<li>item no. 1</li>
<li>item no. 2</li>
<li>item no. 3</li>

letter ""a""
letter ""b""
letter ""c""") = true.
Proof. vm_compute. reflexivity. Qed.

Example docs_line_2062 : same strip (conf_render [] false (u "div class='search'
    span | text

DIV class='search'
    SPAN | text
")) (u "<div class=""search"">
    <span>text</span>
</div>

<DIV class=""search"">
    <SPAN>text</SPAN>
</DIV>") = true.
Proof. vm_compute. reflexivity. Qed.
