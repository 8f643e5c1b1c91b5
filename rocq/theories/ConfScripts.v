(** Conformance of the model with the tests of the repository: tests/test_main.py, tests 19-102. Each script is parsed,
    analysed, translated and rendered by the model, in the environment of ConfRef.v, and the outcome is
    compared with the one asserted in the test. Examples only; no theorem depends on them.
    Left out: test 28 (needs Django filters) and the assertion in line 1677 (a method that alters a list). *)
From Coq Require Import List NArith ZArith String.
From Verif Require Import PyStr Builtins Value Ref ConfRef.
Import ListNotations.
Local Open Scope string_scope.
Local Open Scope list_scope.
Local Open Scope N_scope.

Example conf_019_inplace_assign_line_1002 : same strip (conf_render [] false (u "
        $i   = 7
        $i  += 2
        $i  -= 2
        $i  *= 2
        $i  /= 2
        $i //= 2
        $i  %= 2
        $i   = int(i)
        $i <<= 2
        $i >>= 2
        $i  &= 2
        $i  |= 1
        $i  ^= 123
        $i  ^= 123
        while i < 4
            | $i
            $i += 1
    ")) (u "1
        2
        3") = true.
Proof. vm_compute. reflexivity. Qed.

Example conf_019_inplace_assign_line_1017 : same strip (conf_render [] false (u "
        $x = 1
        div
            $x += 1     -- this <variable> reads ""x"" from the upper level and assigns a new ""x"" in a narrower name scope
            | $x
        | $x
    ")) (u "<div>
            2
        </div>
        1") = true.
Proof. vm_compute. reflexivity. Qed.

Example conf_020_expr_in_string_line_1032 : same strip (conf_render [] false (u "
        $size = '10'
        p style={""font-size:"" size}
        p style={""font-size:"" $size}
        p style=(""font-size:"" + size)
    ")) (u "<p style=""font-size:10""></p>
        <p style=""font-size:10""></p>
        <p style=""font-size:10""></p>") = true.
Proof. vm_compute. reflexivity. Qed.

Example conf_020_expr_in_string_line_1048 : same strip (conf_render [] false (u "
        $size = '10'
        p style =  'font-size: $size'
        p style =  ""font-size: $size px""
        p style =  ""font-size:{size}px""
        p style = r'font-size: $size px'
        p style = r""font-size: {size}""
    ")) (u "<p style=""font-size: 10""></p>
        <p style=""font-size: 10 px""></p>
        <p style=""font-size:10px""></p>
        <p style=""font-size: $size px""></p>
        <p style=""font-size: {size}""></p>") = true.
Proof. vm_compute. reflexivity. Qed.

Example conf_020_expr_in_string_line_1056 : same strip (conf_render [] false (u "
        $size = '10'
        | size {""= $size""}px
    ")) (u "size = 10px") = true.
Proof. vm_compute. reflexivity. Qed.

Example conf_020_expr_in_string_line_1066 : same strip (conf_render [] false (u "
        $size = 10
        | a { ""b $size b"" } a
        | a { ""b { ""c {size} c"" } b"" } a
    ")) (u "a b 10 b a
        a b c 10 c b a") = true.
Proof. vm_compute. reflexivity. Qed.

Example conf_021_recursion_line_1085 : holds (conf_render [] false (u "
        p:p:p:p:p:p:p:p:p:p:p:p:p:p:p:p:p:p:p:p:p:p:p:p:p:p:p:p:p:p:p:p:p:p
            p:p:p:p:p:p:p:p:p:p:p:p:p:p:p:p:p:p:p:p:p:p:p:p:p:p:p:p:p:p:p:p:p:p
                p:p:p:p:p:p:p:p:p:p:p:p:p:p:p:p:p:p:p:p:p:p:p:p:p:p:p:p:p:p:p:p:p:p
                    p:p:p:p:p:p:p:p:p:p:p:p:p:p:p:p:p:p:p:p:p:p:p:p:p:p:p:p:p:p:p:p:p:p
                        p:p:p:p:p:p:p:p:p:p:p:p:p:p:p:p:p:p:p:p:p:p:p:p:p:p:p:p:p:p:p:p:p:p
                            p:p:p:p:p:p:p:p:p:p:p:p:p:p:p:p:p:p:p:p:p:p:p:p:p:p:p:p:p:p:p:p:p:p
                                p:p:p:p:p:p:p:p:p:p:p:p:p:p:p:p:p:p:p:p:p:p:p:p:p:p:p:p:p:p:p:p:p:p
                                    p:p:p:p:p:p:p:p:p:p:p:p:p:p:p:p:p:p:p:p:p:p:p:p:p:p:p:p:p:p:p:p:p:p
                                        p:p:p:p:p:p:p:p:p:p:p:p:p:p:p:p:p:p:p:p:p:p:p:p:p:p:p:p:p:p:p:p:p:p
                                            p:p:p:p:p:p:p:p:p:p:p:p:p:p:p:p:p:p:p:p:p:p:p:p:p:p:p:p:p:p:p:p:p:p
                                                p:p:p:p:p:p:p:p:p:p:p:p:p:p:p:p:p:p:p:p:p:p:p:p:p:p:p:p:p:p:p:p:p:p
                                                    p:p:p:p:p:p:p:p:p:p:p:p:p:p:p:p:p:p:p:p:p:p:p:p:p:p:p:p:p:p:p:p:p:p
                                                        p:p:p:p:p:p:p:p:p:p:p:p:p:p:p:p:p:p:p:p:p:p:p:p:p:p:p:p:p:p:p:p:p:p
                                                            | kot
    ")) (u "kot") = true.
Proof. vm_compute. reflexivity. Qed.

Example conf_022_builtins_line_1104 : same strip (conf_render [] false (u "
        dedent
            div
                p
                    i
                        | kot
    ")) (u "<div>
        <p>
        <i>
        kot
        </i>
        </p>
        </div>") = true.
Proof. vm_compute. reflexivity. Qed.

Example conf_022_builtins_line_1113 : same strip (conf_render [] false (u "
        merge
           | text1
           | {'text2 \n text3' : merge}
    ")) (u "text1 text2 text3") = true.
Proof. vm_compute. reflexivity. Qed.

Example conf_022_builtins_line_1126 : same strip (conf_render [] false (u "
    unique
        merge |
            Hypertag
            rocks !!!
        | { upper('  hyperTAGS   rock   ') : lower : merge }
        | Hypertag rocks !!!
    ")) (u "Hypertag rocks !!!
    hypertags rock") = true.
Proof. vm_compute. reflexivity. Qed.

Example conf_022_builtins_line_1150 : same strip (conf_render [] false (u "
        unique
            | Ala ma kota
            | Ala ma kota
            div
                p
                p
            div
                i |   pies
                i | pies
                |   pies
                | pies
            | Ala ma kota
    ")) (u "Ala ma kota
        <div>
        <p></p>
        </div>
        <i>  pies</i>
        <i>pies</i>
        pies") = true.
Proof. vm_compute. reflexivity. Qed.

Example conf_022_builtins_line_1164 : same strip (conf_render [] false (u "
        for a, b, c in cycle((-1,-2), 'abcdefg', [1,2,3], stop='longest'):
            | $a, $b, $c
    ")) (u "-1, a, 1
        -2, b, 2
        -1, c, 3
        -2, d, 1
        -1, e, 2
        -2, f, 3
        -1, g, 1") = true.
Proof. vm_compute. reflexivity. Qed.

Example conf_022_builtins_line_1178 : same strip (conf_render [] false (u "
        for a, b in cycle('abcdefg', [1,2,3]):
            | $a, $b
    ")) (u "a, 1
        b, 2
        c, 3
        d, 1
        e, 2
        f, 3
        g, 1") = true.
Proof. vm_compute. reflexivity. Qed.

Example conf_022_builtins_line_1191 : same strip (conf_render [] false (u "
        for v, change in changes([1,1,2,2,3,3]):
            | $v, $change
    ")) (u "1, True
        1, False
        2, True
        2, False
        3, True
        3, False") = true.
Proof. vm_compute. reflexivity. Qed.

Example conf_022_builtins_line_1204 : same strip (conf_render [] false (u "
        for v, change in changes([1,1,2,2,3,3], first = False):
            | $v, $change
    ")) (u "1, False
        1, False
        2, True
        2, False
        3, True
        3, False") = true.
Proof. vm_compute. reflexivity. Qed.

Example conf_022_builtins_line_1219 : same strip (conf_render [] false (u "
        | {""ab cd ef gh"" : truncate(7)}
        | {""abcdefgh"" : truncate(7)}
        | {""a b cdefgh"" : crop(9)}
        | {""a b cdefgh"" : crop(9, maxdrop=2)}
        | {""abc def ghi jkl mno pqr"" : truncate(9, maxdrop=2)}
    ")) (u "ab...
        abcd...
        a b...
        a b cd...
        abc de...") = true.
Proof. vm_compute. reflexivity. Qed.

Example conf_022_builtins_line_1229 : same strip (conf_render [] false (u "
    pre : inline
        <| Ala ma
            kota
            i psa
    ")) (u "<pre>&#10;Ala ma&#10; kota&#10; i psa</pre>") = true.
Proof. vm_compute. reflexivity. Qed.

Example conf_023_html_line_1248 : same strip (conf_render [] false (u "
        comment !  $ { } x y z
        comment !
            this is an outline comment | $ {}
        comment
            ! this is an outline comment | $ {}
    ")) (u "<!-- $ { } x y z-->
        <!--
        this is an outline comment | $ {}
        -->
        <!--
            this is an outline comment | $ {}
        -->") = true.
Proof. vm_compute. reflexivity. Qed.

Example conf_023_html_line_1261 : same strip (conf_render [] false (u "
        script type=""text/javascript""
          comment !
              $(window).resize(sectionHeight);
    ")) (u "<script type=""text/javascript"">
          <!--
          $(window).resize(sectionHeight);
          -->
        </script>") = true.
Proof. vm_compute. reflexivity. Qed.

Example conf_023_html_line_1335 : same strip (conf_render [] false (u "
        script !
            var sectionHeight = function() {
              var total    = $(window).height(),
                  $section = $('section').css('height','auto');
            
              if ($section.outerHeight(true) < total) {
                var margin = $section.outerHeight(true) - $section.height();
                $section.height(total - margin - 20);
              } else {
                $section.css('height','auto');
              }
            }
            
            $(window).resize(sectionHeight);
            
            $(function() {
              $(""section h1, section h2, section h3"").each(function(){
                $(""nav ul"").append(""<li class='tag-"" + this.nodeName.toLowerCase() + ""'><a href='#"" + $(this).text().toLowerCase().replace(/ /g, '-').replace(/[^\w-]+/g,'') + ""'>"" + $(this).text() + ""</a></li>"");
                $(this).attr(""id"",$(this).text().toLowerCase().replace(/ /g, '-').replace(/[^\w-]+/g,''));
                $(""nav ul li:first-child a"").parent().addClass(""active"");
              });
            
              $(""nav ul li"").on(""click"", ""a"", function(event) {
                var position = $($(this).attr(""href"")).offset().top - 190;
                $(""html, body"").animate({scrollTop: position}, 400);
                $(""nav ul li a"").parent().removeClass(""active"");
                $(this).parent().addClass(""active"");
                event.preventDefault();
              });
            
              sectionHeight();
            
              $('img').on('load', sectionHeight);
            });
    ")) (u "<script>
        var sectionHeight = function() {
          var total    = $(window).height(),
              $section = $('section').css('height','auto');

          if ($section.outerHeight(true) < total) {
            var margin = $section.outerHeight(true) - $section.height();
            $section.height(total - margin - 20);
          } else {
            $section.css('height','auto');
          }
        }

        $(window).resize(sectionHeight);

        $(function() {
          $(""section h1, section h2, section h3"").each(function(){
            $(""nav ul"").append(""<li class='tag-"" + this.nodeName.toLowerCase() + ""'><a href='#"" + $(this).text().toLowerCase().replace(/ /g, '-').replace(/[^\w-]+/g,'') + ""'>"" + $(this).text() + ""</a></li>"");
            $(this).attr(""id"",$(this).text().toLowerCase().replace(/ /g, '-').replace(/[^\w-]+/g,''));
            $(""nav ul li:first-child a"").parent().addClass(""active"");
          });

          $(""nav ul li"").on(""click"", ""a"", function(event) {
            var position = $($(this).attr(""href"")).offset().top - 190;
            $(""html, body"").animate({scrollTop: position}, 400);
            $(""nav ul li a"").parent().removeClass(""active"");
            $(this).parent().addClass(""active"");
            event.preventDefault();
          });

          sectionHeight();

          $('img').on('load', sectionHeight);
        });
        </script>") = true.
Proof. vm_compute. reflexivity. Qed.

Example conf_024_import_line_1342 : same strip (conf_render [] false (u "
        | $abs(-5)
    ")) (u "5") = true.
Proof. vm_compute. reflexivity. Qed.

Example conf_024_import_line_1348 : same strip (conf_render [] false (u "
        from hypertag.html import *
        from hypertag.html import %p as PARAGRAPH
        PARAGRAPH | kot
    ")) (u "<p>kot</p>") = true.
Proof. vm_compute. reflexivity. Qed.

Example conf_024_import_line_1359 : same strip (conf_render [] false (u "
        from hypertag.tests.sample1 import $x, $f
        | $x
        | $f(2)
    ")) (u "155
        310") = true.
Proof. vm_compute. reflexivity. Qed.

Example conf_024_import_line_1364 : same strip (conf_render [] false (u "
        from hypertag.tests.sample2 import $x
        | $x
    ")) (u "155") = true.
Proof. vm_compute. reflexivity. Qed.

Example conf_024_import_line_1379 : same strip (conf_render [] false (u "
        from hypertag.tests.sample2 import %H
        H 3
        $x = 10
        H 0
            | abc
    ")) (u "158
        465
        155
        abc
        0") = true.
Proof. vm_compute. reflexivity. Qed.

Example conf_024_import_line_1396 : same strip (conf_render [] true (u "
        from hypertag.tests.sample2 import $x, $z, %G
        | $x, $z
        G | abc
        G x=20
            | xyz
    ")) (u "155, 170
        24
        abc
        135
        35
        xyz
        300") = true.
Proof. vm_compute. reflexivity. Qed.

Example conf_024_import_line_1413 : same strip (conf_render [] true (u "
        from hypertag.tests.sample4 import $x, $y, %G, %H
        | $x, $y
        G | abc
        H | xyz
    ")) (u "310, 155
        in G
        24
        abc
        135
        24
        xyz
        135") = true.
Proof. vm_compute. reflexivity. Qed.

Example conf_024_import_line_1420 : same strip (conf_render [] false (u "
        $item = 5
        from hypertag.tests.sample3 import %print_data
        print_data $item
    ")) (u "<h2><b>Data</b></h2>") = true.
Proof. vm_compute. reflexivity. Qed.

Example conf_025_empty_control_line_1437 : same strip (conf_render [] false (u "
        if False
        elif (True * 5)
        else
        if (3*4):
        if True |
        elif False /
    ")) (u "") = true.
Proof. vm_compute. reflexivity. Qed.

Example conf_025_empty_control_line_1446 : same strip (conf_render [] false (u "
        for i in [1,2]
        for i in [1,2]:
        for i in [1,2] :
        for i in [1,2] /
        for i in [1,2] |
        for i in [1,2]!
    ")) (u "") = true.
Proof. vm_compute. reflexivity. Qed.

Example conf_025_empty_control_line_1452 : same strip (conf_render [] false (u "
        while True and False
        while 1 + 2 != 3:
        while False|
    ")) (u "") = true.
Proof. vm_compute. reflexivity. Qed.

Example conf_025_empty_control_line_1464 : same strip (conf_render [] false (u "
        ?
        ? |
        try
        try:
        try :
        try |
        try
        else
        else :
    ")) (u "") = true.
Proof. vm_compute. reflexivity. Qed.

Example conf_026_attributes_line_1475 : same strip (conf_render [] false (u "
        %T a b c:
            | {a b c}
        T ""yes"" (-2) True
    ")) (u "yes-2True") = true.
Proof. vm_compute. reflexivity. Qed.

Example conf_026_attributes_line_1486 : same strip (conf_render [] false (u "
        p .scroll.box.atomic | kot
        p.scroll.box.atomic#id class=""other"" | kot
        p#id | pies
    ")) (u "<p class=""scroll box atomic"">kot</p>
        <p class=""scroll box atomic other"" id=""id"">kot</p>
        <p id=""id"">pies</p>") = true.
Proof. vm_compute. reflexivity. Qed.

Example conf_026_attributes_line_1501 : same strip (conf_render [] false (u "
        p name=""ala ma &amp; kota""
        p name = 'ala ma &amp; kota'
        p name=(""ala "" '""ma""' "" 'kota' <&>"")
        p name=(""ala "" '""ma""' r"" 'kota' <&> ${}"")
    ")) (u "<p name=""ala ma &amp;amp; kota""></p>
        <p name=""ala ma &amp;amp; kota""></p>
        <p name=""ala &quot;ma&quot; 'kota' &lt;&amp;&gt;""></p>
        <p name=""ala &quot;ma&quot; 'kota' &lt;&amp;&gt; ${}""></p>") = true.
Proof. vm_compute. reflexivity. Qed.

Example conf_027_pipelines_line_1508 : same strip (conf_render [] false (u "
        | { 'Hypertag' : str.upper : list : sorted(reverse=True) }
    ")) (u "['Y', 'T', 'R', 'P', 'H', 'G', 'E', 'A']") = true.
Proof. vm_compute. reflexivity. Qed.

Example conf_027_pipelines_line_1512 : same strip (conf_render [] false (u "
        | { 'Hypertag':str.upper():sorted }
    ")) (u "['A', 'E', 'G', 'H', 'P', 'R', 'T', 'Y']") = true.
Proof. vm_compute. reflexivity. Qed.

Example conf_029_charset_line_1554 : same strip (conf_render [] false (u "
        div " ++ [261; 322; 281] ++ u "_" ++ [378; 243] ++ u ":1-x = ''
        div " ++ [63745; 63746] ++ u "-" ++ [63747; 63748] ++ u " = ''
    ")) (u "<div " ++ [261; 322; 281] ++ u "_" ++ [378; 243] ++ u ":1-x=""""></div>
        <div " ++ [63745; 63746] ++ u "-" ++ [63747; 63748] ++ u "=""""></div>") = true.
Proof. vm_compute. reflexivity. Qed.

Example conf_029_charset_line_1562 : same strip (conf_render [] false (u "
        | {'abc' + '\n\x55\t' + 'def'}
    ")) (u "abc
        U	def") = true.
Proof. vm_compute. reflexivity. Qed.

Example conf_030_context_line_1569 : same strip (conf_render [(u "x", VInt 10); (u "y", VInt 11)] false (u "
        context $x, $y as z
        | {x + z}
    ")) (u "21") = true.
Proof. vm_compute. reflexivity. Qed.

Example conf_030_context_line_1576 : same strip (conf_render [(u "x", VInt 10); (u "y", VInt 11)] false (u "
        ## comment block
        context $x            # variable ""x""
        context $y as z       -- variable ""y"" renamed internally to ""z""
        | {x * z}
    ")) (u "110") = true.
Proof. vm_compute. reflexivity. Qed.

Example conf_030_context_line_1583 : same strip (conf_render [(u "x", VStr (u "A"))] false (u "
        context $x
        from builtins import *
        from builtins import $ord
        | $ord(x)
    ")) (u "65") = true.
Proof. vm_compute. reflexivity. Qed.

Example conf_030_context_line_1585 : raises (conf_render [] false (u "
            from builtins import $ord
            context $s
        ")) SyntaxError = true.
Proof. vm_compute. reflexivity. Qed.

Example conf_030_context_line_1590 : raises (conf_render [] false (u "
            | kot
            context $s
        ")) SyntaxError = true.
Proof. vm_compute. reflexivity. Qed.

Example conf_031_embedded_tags_line_1613 : same strip (conf_render [] false (u "
        %link @text
            a href='#' @text
        
        link | Ala
        link
            | kot
        b / ({%link('pies')})
    ")) (u "<a href=""#"">Ala</a>
        <a href=""#"">
        kot
        </a>
        <b>(<a href=""#"">pies</a>)</b>") = true.
Proof. vm_compute. reflexivity. Qed.

Example conf_031_embedded_tags_line_1627 : same strip (conf_render [] false (u "
        from hypertag.tests.sample2 import %G
        %H | hypertag
        / {%div('kot', id=5)}
        / G is: {%G()} .
        / H is: {%H()} .
    ")) (u "<div id=""5"">kot</div>
        G is: 24
        135 .
        H is: hypertag .") = true.
Proof. vm_compute. reflexivity. Qed.

Example conf_031_embedded_tags_line_1633 : same strip (conf_render [] false (u "
        %f @s
            @s
        | {10 % int(%f('3'))}
    ")) (u "1") = true.
Proof. vm_compute. reflexivity. Qed.

Example conf_032_qualifiers_embedding_line_1640 : same strip (conf_render [] false (u "a href={0}?")) (u "<a href=""""></a>") = true.
Proof. vm_compute. reflexivity. Qed.

Example conf_032_qualifiers_embedding_line_1641 : same strip (conf_render [] false (u "a .{'a'}?")) (u "<a class=""a""></a>") = true.
Proof. vm_compute. reflexivity. Qed.

Example conf_032_qualifiers_embedding_line_1642 : same strip (conf_render [] false (u "a .{'a'}!")) (u "<a class=""a""></a>") = true.
Proof. vm_compute. reflexivity. Qed.

Example conf_032_qualifiers_embedding_line_1643 : same strip (conf_render [] false (u "a #{'a'}?")) (u "<a id=""a""></a>") = true.
Proof. vm_compute. reflexivity. Qed.

Example conf_032_qualifiers_embedding_line_1644 : same strip (conf_render [] false (u "$ x = {1}?")) (u "") = true.
Proof. vm_compute. reflexivity. Qed.

Example conf_033_ifelse_expr_line_1655 : same strip (conf_render [] false (u "
        | abc{'...' if len('kot')>10}
        | abc{'...' if len('kot')>0}
    ")) (u "abc
        abc...") = true.
Proof. vm_compute. reflexivity. Qed.

Example conf_034_tag_custom_line_1668 : same strip (conf_render [] false (u "
        $name = 'aaa-123'
        custom 'abc-xyz' class='title' .long
            custom $name | body
    ")) (u "<abc-xyz class=""title long"">
            <aaa-123>body</aaa-123>
        </abc-xyz>") = true.
Proof. vm_compute. reflexivity. Qed.

Example conf_035_expr_block_line_1682 : same strip (conf_render [] false (u "
        $x = {12: ""34""}
        | $x
    ")) (u "{12: '34'}") = true.
Proof. vm_compute. reflexivity. Qed.

Example conf_100_varia_line_1713 : same strip (conf_render [] false (u "
        h1 : a href=""http://xxx.com"": |This is <h1> title
            p  / And <a> paragraph.
        div
            | Ala { '" ++ [281; 322; 261; 347; 378; 263; 243; 211; 321; 260; 280; 346; 379; 377; 262] ++ u "' } " ++ [281; 322; 261; 347; 378; 263; 243; 211; 321; 260; 280; 346; 379; 377; 262] ++ u "
              kot.
            / i pies
        
        div #box .top .grey
        div #box .top .grey-01
        input enabled=True
    ")) (u "<h1><a href=""http://xxx.com"">This is &lt;h1&gt; title
            <p>And <a> paragraph.</p></a></h1>
        <div>
            Ala " ++ [281; 322; 261; 347; 378; 263; 243; 211; 321; 260; 280; 346; 379; 377; 262] ++ u " " ++ [281; 322; 261; 347; 378; 263; 243; 211; 321; 260; 280; 346; 379; 377; 262] ++ u "
            kot.
            i pies
        </div>

        <div id=""box"" class=""top grey""></div>
        <div id=""box"" class=""top grey-01""></div>
        <input enabled />") = true.
Proof. vm_compute. reflexivity. Qed.

Example conf_101_varia_line_1733 : same strip (conf_render [] false (u "
        % fancy_text @body size='10px':
            | *****
            p style=(""color: blue; font-size: "" size)
                @body
            | *****

        fancy_text '20px'
            | This text is rendered through a FANCY hypertag!
    ")) (u "*****
        <p style=""color: blue; font-size: 20px"">
            This text is rendered through a FANCY hypertag!
        </p>
        *****") = true.
Proof. vm_compute. reflexivity. Qed.

Example conf_102_bugfix_try_indent_line_1752 : same strip (conf_render [] false (u "
    html
        h2
        table
            try
                a href={int('a')}
            try
                a href={int('b')}
    ")) (u "<html>
        <h2></h2>
        <table></table>
    </html>") = true.
Proof. vm_compute. reflexivity. Qed.

Example conf_102_bugfix_try_indent_line_1766 : same strip (conf_render [] false (u "
 tr
    try
        | {int('a')}
    | x
    try
        | {int('b')}
    ")) (u "<tr>
    x
 </tr>") = true.
Proof. vm_compute. reflexivity. Qed.
