(** Conformance of the model with the tests of the repository: tests/test_main.py, tests 1-18. Each script is parsed,
    analysed, translated and rendered by the model, in the environment of ConfRef.v, and the outcome is
    compared with the one asserted in the test. Examples only; no theorem depends on them. *)
From Coq Require Import List NArith ZArith String.
From Verif Require Import PyStr Builtins Value Ref ConfRef.
Import ListNotations.
Local Open Scope string_scope.
Local Open Scope list_scope.
Local Open Scope N_scope.

Example conf_001_basic_line_38 : same (fun t => t) (conf_render [] false (u "")) (u "") = true.
Proof. vm_compute. reflexivity. Qed.

Example conf_001_basic_line_40 : same (fun t => t) (conf_render [] false (u "      ")) (u "") = true.
Proof. vm_compute. reflexivity. Qed.

Example conf_001_basic_line_42 : same (fun t => t) (conf_render [] false (u " |Ala    ")) (u " Ala") = true.
Proof. vm_compute. reflexivity. Qed.

Example conf_001_basic_line_44 : same (fun t => t) (conf_render [] false (u "
|Ala
")) (u "
Ala
") = true.
Proof. vm_compute. reflexivity. Qed.

Example conf_001_basic_line_46 : same (fun t => t) (conf_render [] false (u "

	|Ala

")) (u "

	Ala

") = true.
Proof. vm_compute. reflexivity. Qed.

Example conf_001_basic_line_48 : same (fun t => t) (conf_render [] false (u "

 	 | Ala

")) (u "

 	 Ala

") = true.
Proof. vm_compute. reflexivity. Qed.

Example conf_001_basic_line_51 : same (fun t => t) (conf_render [] false (u "| $$ {{ }} {'.'}")) (u "$ { } .") = true.
Proof. vm_compute. reflexivity. Qed.

Example conf_002_qualifiers_line_57 : same strip (conf_render [] false (u " | kot { 'Mru' ""czek"" 123 0! }? {456}! {0}? ")) (u "kot  456") = true.
Proof. vm_compute. reflexivity. Qed.

Example conf_002_qualifiers_line_61 : same strip (conf_render [] false (u " | kot { 'Mru' ""czek"" 123 0? }! {456}? {0}? ")) (u "kot Mruczek123 456") = true.
Proof. vm_compute. reflexivity. Qed.

Example conf_002_qualifiers_line_63 : raises (conf_render [] false (u "| {0}!")) FalseValue = true.
Proof. vm_compute. reflexivity. Qed.

Example conf_003_empty_blocks_line_91 : same strip (conf_render [] false (u "
        p
        p:
        p |
        div /
        form !
        |
        /
        !
        B: |
    ")) (u "<p></p>
        <p></p>
        <p></p>
        <div></div>
        <form></form>



        <B></B>") = true.
Proof. vm_compute. reflexivity. Qed.

Example conf_004_layout_line_110 : same strip (conf_render [] false (u "
        h1
            p : b | Ala
            p
                |     Ola
                    i kot
    ")) (u "<h1>
            <p><b>Ala</b></p>
            <p>
                    Ola
                  i kot
            </p>
        </h1>") = true.
Proof. vm_compute. reflexivity. Qed.

Example conf_004_layout_line_129 : same strip (conf_render [] false (u "
        div
        

        p
        
            i
    ")) (u "<div></div>


        <p>

            <i></i>
        </p>") = true.
Proof. vm_compute. reflexivity. Qed.

Example conf_004_layout_line_152 : same strip (conf_render [] false (u "
        p
            <p: | Ala
                | kot
            b | i pies
            < if True:
                / clause of
                | dedented ""if""
            if True:
                < p | dedented clause in indented ""if""
    ")) (u "<p>
        <p>Ala
            kot</p>
            <b>i pies</b>
        clause of
        dedented ""if""
            <p>dedented clause in indented ""if""</p>
        </p>") = true.
Proof. vm_compute. reflexivity. Qed.

Example conf_004_layout_line_166 : same strip (conf_render [] false (u "
        DIV
            < try | {True}!
            < try | {False}!
            <? | {True}!
            <? | {False}!
    ")) (u "<DIV>
        True
        True
        </DIV>") = true.
Proof. vm_compute. reflexivity. Qed.

Example conf_004_layout_line_171 : same strip (conf_render [] false (u "
        | Ala ma
        ...| kota
    ")) (u "Ala makota") = true.
Proof. vm_compute. reflexivity. Qed.

Example conf_004_layout_line_176 : same strip (conf_render [] false (u "
        | Ala ma
        ...|  kota
    ")) (u "Ala ma kota") = true.
Proof. vm_compute. reflexivity. Qed.

Example conf_004_layout_line_188 : same strip (conf_render [] false (u "
        p
            i  | line1
            ...| line2
        ... |line3
    ")) (u "<p>
            <i>line1</i>line2
        </p>line3") = true.
Proof. vm_compute. reflexivity. Qed.

Example conf_004_layout_line_197 : same strip (conf_render [] false (u "
        i  | line1
        ...| line2
        ... b | line3
    ")) (u "<i>line1</i>line2<b>line3</b>") = true.
Proof. vm_compute. reflexivity. Qed.

Example conf_004_layout_line_206 : same strip (conf_render [] false (u "
        %H x | $x
        | (
        ... H 1
        ... | ,
        ... H 2
        ... | )
    ")) (u "(1,2)") = true.
Proof. vm_compute. reflexivity. Qed.

Example conf_004_layout_line_221 : same strip (conf_render [] false (u "
        p
            i  | line1
            ...|  + a multiline block
                 is appended
                 with indentation preserved
    ")) (u "<p>
            <i>line1</i> + a multiline block
            is appended
            with indentation preserved
        </p>") = true.
Proof. vm_compute. reflexivity. Qed.

Example conf_004_layout_line_230 : same strip (conf_render [] false (u "
        p
            ... | a block with no predecessors
            ... /  can be inlined into its parent
    ")) (u "<p>a block with no predecessors can be inlined into its parent</p>") = true.
Proof. vm_compute. reflexivity. Qed.

Example conf_005_doc_margins_line_235 : same (fun t => t) (conf_render [] false (u "

 p | text  
  
  ")) (u "

 <p>text</p>

") = true.
Proof. vm_compute. reflexivity. Qed.

Example conf_006_if_line_251 : same strip (conf_render [] false (u "
        if (False):
            |Ala
        elif True * 5:
            div | Ola
    ")) (u "<div>Ola</div>") = true.
Proof. vm_compute. reflexivity. Qed.

Example conf_006_if_line_256 : same strip (conf_render [] false (u "
        if {} | Ala
        elif 5 | Ola
    ")) (u "Ola") = true.
Proof. vm_compute. reflexivity. Qed.

Example conf_006_if_line_261 : same strip (conf_render [] false (u "
        if {} | Ala
        else / Ola
    ")) (u "Ola") = true.
Proof. vm_compute. reflexivity. Qed.

Example conf_006_if_line_267 : same strip (conf_render [] false (u "
        $test = False
        if test ! Ala
        elif (not test) / Ola
    ")) (u "Ola") = true.
Proof. vm_compute. reflexivity. Qed.

Example conf_006_if_line_271 : same strip (conf_render [] false (u "
        if True | true
    ")) (u "true") = true.
Proof. vm_compute. reflexivity. Qed.

Example conf_006_if_line_276 : same strip (conf_render [] false (u "
        if (1 != 2)
            | yes
    ")) (u "yes") = true.
Proof. vm_compute. reflexivity. Qed.

Example conf_006_if_line_280 : same strip (conf_render [] false (u "
        if (1 != 2) ! yes
    ")) (u "yes") = true.
Proof. vm_compute. reflexivity. Qed.

Example conf_006_if_line_285 : same strip (conf_render [] false (u "
        if 1 <> 2
            | yes
    ")) (u "yes") = true.
Proof. vm_compute. reflexivity. Qed.

Example conf_007_variables_line_295 : same strip (conf_render [] false (u "
        if True:
            $ x = 5
        else:
            $ x = 10
        | {x}
    ")) (u "5") = true.
Proof. vm_compute. reflexivity. Qed.

Example conf_007_variables_line_305 : same merge (conf_render [] false (u "
        $ x = 1
        p:
            $ x = 2
            | {x}
            # the line above outputs ""2""
        | {x}
        # the line above outputs ""1""
    ")) (u "<p> 2 </p> 1") = true.
Proof. vm_compute. reflexivity. Qed.

Example conf_007_variables_line_313 : same strip (conf_render [] false (u "
        if False:
            $ x = 5
        else:
            $ x = 10
        | {x}
    ")) (u "10") = true.
Proof. vm_compute. reflexivity. Qed.

Example conf_007_variables_line_321 : same merge (conf_render [] false (u "
        $ y = 0
        div : p
            $ y = 5
            | {y}
    ")) (u "<div><p> 5 </p></div>") = true.
Proof. vm_compute. reflexivity. Qed.

Example conf_007_variables_line_331 : same strip (conf_render [] false (u "
        $x = 0
        if False:
            $x = 1
        elif x > 0:
            $x = 2
        | $x
    ")) (u "0") = true.
Proof. vm_compute. reflexivity. Qed.

Example conf_007_variables_line_336 : same strip (conf_render [] false (u "
        $ a, (b, c) = 1, (2, 3)
        | $a, $b, $c
    ")) (u "1, 2, 3") = true.
Proof. vm_compute. reflexivity. Qed.

Example conf_008_variables_err_line_340 : raises (conf_render [] false (u "
            if False:
                $ x = 5
            else:
                $ y = 10
            | {x}
        ")) UnboundLocalError = true.
Proof. vm_compute. reflexivity. Qed.

Example conf_008_variables_err_line_348 : raises (conf_render [] false (u "
            p
                $ y = 5
            | {y}
        ")) NameError = true.
Proof. vm_compute. reflexivity. Qed.

Example conf_009_collections_line_357 : same merge (conf_render [] false (u "| { () }")) (u "()") = true.
Proof. vm_compute. reflexivity. Qed.

Example conf_009_collections_line_359 : same merge (conf_render [] false (u "| { (1 , ) }")) (u "(1,)") = true.
Proof. vm_compute. reflexivity. Qed.

Example conf_009_collections_line_361 : same merge (conf_render [] false (u "| { (1,2, 3) }")) (u "(1, 2, 3)") = true.
Proof. vm_compute. reflexivity. Qed.

Example conf_009_collections_line_364 : same merge (conf_render [] false (u "| { [] }")) (u "[]") = true.
Proof. vm_compute. reflexivity. Qed.

Example conf_009_collections_line_366 : same merge (conf_render [] false (u "| { [1 , ] }")) (u "[1]") = true.
Proof. vm_compute. reflexivity. Qed.

Example conf_009_collections_line_368 : same merge (conf_render [] false (u "| { [1,2, 3] }")) (u "[1, 2, 3]") = true.
Proof. vm_compute. reflexivity. Qed.

Example conf_009_collections_line_370 : same merge (conf_render [] false (u "| { [ 1 ,[2], (), (3,)] }")) (u "[1, [2], (), (3,)]") = true.
Proof. vm_compute. reflexivity. Qed.

Example conf_009_collections_line_373 : same merge (conf_render [] false (u "| {{'set'}}")) (u "{'set'}") = true.
Proof. vm_compute. reflexivity. Qed.

Example conf_009_collections_line_375 : same merge (conf_render [] false (u "| { { 'set' , } }")) (u "{'set'}") = true.
Proof. vm_compute. reflexivity. Qed.

Example conf_009_collections_line_377 : same merge (conf_render [] false (u "| { {1, 1 ,1} }")) (u "{1}") = true.
Proof. vm_compute. reflexivity. Qed.

Example conf_009_collections_line_380 : same merge (conf_render [] false (u "| { {} }")) (u "{}") = true.
Proof. vm_compute. reflexivity. Qed.

Example conf_009_collections_line_382 : same merge (conf_render [] false (u "| { { } }")) (u "{}") = true.
Proof. vm_compute. reflexivity. Qed.

Example conf_009_collections_line_384 : same merge (conf_render [] false (u "| { {1:1, 2 : 2 , 3 :3,3:4,} }")) (u "{1: 1, 2: 2, 3: 4}") = true.
Proof. vm_compute. reflexivity. Qed.

Example conf_009_collections_line_386 : same merge (conf_render [] false (u "| {{ }}")) (u "{ }") = true.
Proof. vm_compute. reflexivity. Qed.

Example conf_009_collections_line_389 : same merge (conf_render [] false (u "| { 'ala'[1:2:1] }")) (u "l") = true.
Proof. vm_compute. reflexivity. Qed.

Example conf_009_collections_line_391 : same merge (conf_render [] false (u "| { 'Ala'[3:0:-1] }")) (u "al") = true.
Proof. vm_compute. reflexivity. Qed.

Example conf_009_collections_line_393 : same merge (conf_render [] false (u "| { 'Ala'[1+2 : 0*0 : -1+5*0] }")) (u "al") = true.
Proof. vm_compute. reflexivity. Qed.

Example conf_009_collections_line_395 : same merge (conf_render [] false (u "| { {1+2:3-4, -5 : 6*7*0} }")) (u "{3: -1, -5: 0}") = true.
Proof. vm_compute. reflexivity. Qed.

Example conf_010_for_line_405 : same strip (conf_render [] false (u "
        $x = 1
        for i in [1,2,3]:
            $x += 1
        | $x
    ")) (u "4") = true.
Proof. vm_compute. reflexivity. Qed.

Example conf_010_for_line_419 : same strip (conf_render [] false (u "
        for i in [1,2,3]:
            p | $i
            | {i+10}
    ")) (u "<p>1</p>
        11
        <p>2</p>
        12
        <p>3</p>
        13") = true.
Proof. vm_compute. reflexivity. Qed.

Example conf_010_for_line_434 : same strip (conf_render [] false (u "
        / pre

        for i in []:
            | $i

        ! post
    ")) (u "pre


        post") = true.
Proof. vm_compute. reflexivity. Qed.

Example conf_010_for_line_452 : same strip (conf_render [] false (u "
        for i in [1,2]:
            p:
                $i = i + 5
                | $i in
            | $i out
    ")) (u "<p>
            6 in
        </p>
        1 out
        <p>
            7 in
        </p>
        2 out") = true.
Proof. vm_compute. reflexivity. Qed.

Example conf_010_for_line_456 : same strip (conf_render [] false (u "
        for i in [1,2,3] | $i
    ")) (u "123") = true.
Proof. vm_compute. reflexivity. Qed.

Example conf_010_for_line_460 : same strip (conf_render [] false (u "
        for i in [1,2,3] |   $i
    ")) (u "1  2  3") = true.
Proof. vm_compute. reflexivity. Qed.

Example conf_010_for_line_472 : same strip (conf_render [] false (u "
        for i in [1,2,3]:
            | $i
        else:
            | Empty
    ")) (u "1
        2
        3") = true.
Proof. vm_compute. reflexivity. Qed.

Example conf_010_for_line_479 : same strip (conf_render [] false (u "
        for i in ([1,2,3]*0):
            | $i
        else
            | Empty
    ")) (u "Empty") = true.
Proof. vm_compute. reflexivity. Qed.

Example conf_010_for_line_484 : same strip (conf_render [] false (u "
        for i in ([1,2,3]*0) | $i
        else / Empty
    ")) (u "Empty") = true.
Proof. vm_compute. reflexivity. Qed.

Example conf_010_for_line_489 : same strip (conf_render [] false (u "
        for i in [] / $i
        else ! Empty
    ")) (u "Empty") = true.
Proof. vm_compute. reflexivity. Qed.

Example conf_011_calls_line_501 : same strip (conf_render [] false (u "
        for i in range(3):
            | $i
    ")) (u "0
        1
        2") = true.
Proof. vm_compute. reflexivity. Qed.

Example conf_011_calls_line_511 : same strip (conf_render [] false (u "
        for i in range( 1 , 7 , 2 ,):
            | $i
    ")) (u "1
        3
        5") = true.
Proof. vm_compute. reflexivity. Qed.

Example conf_011_calls_line_521 : same strip (conf_render [] false (u "
        for pair in enumerate(range(3), start = 10):
            | $pair
    ")) (u "(10, 0)
        (11, 1)
        (12, 2)") = true.
Proof. vm_compute. reflexivity. Qed.

Example conf_011_calls_line_531 : same strip (conf_render [] false (u "
        for i, val in enumerate(range(3), start = 10):
            | $val at $i
    ")) (u "0 at 10
        1 at 11
        2 at 12") = true.
Proof. vm_compute. reflexivity. Qed.

Example conf_011_calls_line_545 : same strip (conf_render [] false (u "
        $k = 5
        for i, val in enumerate(range(k-2), start = k*2):
            $ i = i + 1
            | $val at $i
        | $i
    ")) (u "0 at 11
        1 at 12
        2 at 13
        13") = true.
Proof. vm_compute. reflexivity. Qed.

Example conf_011_calls_line_548 : same merge (conf_render [] false (u "| { {'a':'b'}.get('c', 123) }")) (u "123") = true.
Proof. vm_compute. reflexivity. Qed.

Example conf_011_calls_line_550 : same merge (conf_render [] false (u "| { { 'a' : 'b' } . get ('c', 123) ' ' 'aaa' }")) (u "123 aaa") = true.
Proof. vm_compute. reflexivity. Qed.

Example conf_012_hypertags_line_558 : same strip (conf_render [] false (u "
        %H a b c:
            p | $a $b $c
        H 1 c=3 b=2
    ")) (u "<p>1 2 3</p>") = true.
Proof. vm_compute. reflexivity. Qed.

Example conf_012_hypertags_line_564 : same strip (conf_render [] false (u "
        %H a b c
            p | $a $b $c
        H 1 c=3 b=2
    ")) (u "<p>1 2 3</p>") = true.
Proof. vm_compute. reflexivity. Qed.

Example conf_012_hypertags_line_570 : same strip (conf_render [] false (u "
        %H a b=4 c='5':
            p | $a $b $c
        H 1 b=2
    ")) (u "<p>1 2 5</p>") = true.
Proof. vm_compute. reflexivity. Qed.

Example conf_012_hypertags_line_575 : same strip (conf_render [] false (u "
        %H a b=4 c='5' | $a $b  $c
        H 1 b=2
    ")) (u "1 2  5") = true.
Proof. vm_compute. reflexivity. Qed.

Example conf_012_hypertags_line_580 : same strip (conf_render [] false (u "
        %H  a  b = 4 c  ='5'|$a$b$c
        H 1 b=2
    ")) (u "125") = true.
Proof. vm_compute. reflexivity. Qed.

Example conf_012_hypertags_line_586 : same strip (conf_render [] false (u "
        $b = 10
        %H a b=4 c={b+5} | $a $b $c
        H 1 b={b*2}
    ")) (u "1 20 15") = true.
Proof. vm_compute. reflexivity. Qed.

Example conf_012_hypertags_line_603 : same strip (conf_render [] false (u "
        %H x | headline
           text {x} text
              indented line
              
            last line
        H True
    ")) (u "headline
        text True text
           indented line

         last line") = true.
Proof. vm_compute. reflexivity. Qed.

Example conf_012_hypertags_line_618 : same strip (conf_render [] false (u "
        %H @body a=0
            | $a
            @ body
        p
            H 5
                i | kot
    ")) (u "<p>
            5
            <i>kot</i>
        </p>") = true.
Proof. vm_compute. reflexivity. Qed.

Example conf_012_hypertags_line_631 : same strip (conf_render [] false (u "
        %H | xxx
        p
            %H @body a=0
                | $a
            H 5
    ")) (u "<p>
            5
        </p>") = true.
Proof. vm_compute. reflexivity. Qed.

Example conf_012_hypertags_line_638 : same strip (conf_render [] false (u "
        %H | xxx
        %H @body a=0
            | $a
        H 5
    ")) (u "5") = true.
Proof. vm_compute. reflexivity. Qed.

Example conf_012_hypertags_line_643 : same strip (conf_render [] false (u "
        %H @body a=0 | $a
        p : H 5
    ")) (u "<p>5</p>") = true.
Proof. vm_compute. reflexivity. Qed.

Example conf_012_hypertags_line_648 : same strip (conf_render [] false (u "
        %H @body a=0 @ body
        p : H 5 | kot
    ")) (u "<p>kot</p>") = true.
Proof. vm_compute. reflexivity. Qed.

Example conf_012_hypertags_line_670 : same strip (conf_render [] false (u "
        $g = 100
        %G x | xxx {x+g}
        %H @body a=0
            | ala
            @ body
            $g = 200
            %F x y={a*2}
                G {x+y+a+g}
                | inside F
            F 10
        H 5
            | pies
    ")) (u "ala
        pies
        xxx 325
        inside F") = true.
Proof. vm_compute. reflexivity. Qed.

Example conf_012_hypertags_line_682 : same strip (conf_render [] false (u "
        $g = 100
        %g x | xxx {x+g}
        %H @body a=0
            $g = 200
            g {a+g}
        H 5
    ")) (u "xxx 305") = true.
Proof. vm_compute. reflexivity. Qed.

Example conf_012_hypertags_line_690 : same strip (conf_render [] false (u "
        %H @body
            @body[0]
        H
            | first
            | second
    ")) (u "first") = true.
Proof. vm_compute. reflexivity. Qed.

Example conf_012_hypertags_line_705 : same strip (conf_render [] false (u "
        %G @body
            @body[0]
            | in G
        %H @body
            G @ body[-1]
        H
            | first
            | last
    ")) (u "last
        in G") = true.
Proof. vm_compute. reflexivity. Qed.

Example conf_012_hypertags_line_719 : same strip (conf_render [] false (u "
        $x = 1
        %H
            | $x
        $x = 2
        H
        $x = 3
        H
    ")) (u "2
        3") = true.
Proof. vm_compute. reflexivity. Qed.

Example conf_013_hypertags_err_line_722 : raises (conf_render [] false (u "
            p
                %H @body a=0
                    | $a
                    @ body
            H 1
        ")) UndefinedTag = true.
Proof. vm_compute. reflexivity. Qed.

Example conf_014_none_embedded_line_732 : raises (conf_render [] false (u " | {None} ")) NoneString = true.
Proof. vm_compute. reflexivity. Qed.

Example conf_014_none_embedded_line_734 : raises (conf_render [] false (u " | {None None} ")) NoneString = true.
Proof. vm_compute. reflexivity. Qed.

Example conf_014_none_embedded_line_738 : same strip (conf_render [] false (u " | {'a' None? 'b' None? 'c'} ")) (u "abc") = true.
Proof. vm_compute. reflexivity. Qed.

Example conf_015_try_line_742 : same (fun t => t) (conf_render [] false (u " ? | {None} ")) (u "") = true.
Proof. vm_compute. reflexivity. Qed.

Example conf_015_try_line_748 : same strip (conf_render [] false (u "
        $ x = ''
        | x $x
        ? | x $x!
    ")) (u "x") = true.
Proof. vm_compute. reflexivity. Qed.

Example conf_015_try_line_753 : same strip (conf_render [] false (u "
        $ x = False
        try | x $x!
    ")) (u "") = true.
Proof. vm_compute. reflexivity. Qed.

Example conf_015_try_line_761 : same strip (conf_render [] false (u "
        $ x = 0
        try | x $x!
        else| x*2 = {x*2}!
        else| x+1 = {x+1}!
        else! error
    ")) (u "x+1 = 1") = true.
Proof. vm_compute. reflexivity. Qed.

Example conf_015_try_line_769 : same strip (conf_render [] false (u "
        $ x = 0
        try
            p | x $x!
        else
            p | x+1 = {x+1}!
    ")) (u "<p>x+1 = 1</p>") = true.
Proof. vm_compute. reflexivity. Qed.

Example conf_015_try_line_777 : same strip (conf_render [] false (u "
        $ x = 0
        try :
            p | x $x!
        else
            p | x+1 = {x+1}!
    ")) (u "<p>x+1 = 1</p>") = true.
Proof. vm_compute. reflexivity. Qed.

Example conf_015_try_line_785 : same strip (conf_render [] false (u "
        $ x = 0
        try | x $x!
        else:
            try  / x*2 = {x*2}!
            else / x+1 = {x+1}!
    ")) (u "x+1 = 1") = true.
Proof. vm_compute. reflexivity. Qed.

Example conf_015_try_line_791 : same strip (conf_render [] false (u "
        $ x = False
        ?
            | x $x!
    ")) (u "") = true.
Proof. vm_compute. reflexivity. Qed.

Example conf_016_special_tags_line_813 : same strip (conf_render [] false (u "
        div
            p   | title
            .   | contents
                  more lines...
            .
                a | link
                . | xxxxx
    ")) (u "<div>
            <p>title</p>
            contents
            more lines...

                <a>link</a>
                xxxxx
        </div>") = true.
Proof. vm_compute. reflexivity. Qed.

Example conf_016_special_tags_line_827 : same strip (conf_render [] false (u "
        | pre
        for i in range(3)
            .
        | post
    ")) (u "pre



        post") = true.
Proof. vm_compute. reflexivity. Qed.

Example conf_016_special_tags_line_840 : same strip (conf_render [] false (u "
        | pre
        pass
        pass
        for i in [1,2]
            pass
        | post
    ")) (u "pre
        post") = true.
Proof. vm_compute. reflexivity. Qed.

Example conf_017_comments_line_857 : same strip (conf_render [] false (u "
        # comment
        -- comment
        ---- comment
        div
            p   | title
            # comment
             more lines
    ")) (u "<div>
            <p>title</p>
        </div>") = true.
Proof. vm_compute. reflexivity. Qed.

Example conf_017_comments_line_879 : same strip (conf_render [] false (u "
        p        -- comment
        p:       #  comment
        .        -- comment
        for i in range(1)    #  comment
            .                -- comment
        for i in range(1):   --  comment
            .
        if True             -- why not?
            | yes
        else:               # no no no
            | no
    ")) (u "<p></p>
        <p></p>



        yes") = true.
Proof. vm_compute. reflexivity. Qed.

Example conf_017_comments_line_896 : same strip (conf_render [] false (u "
        | a
        # this is a long ...
            multiline ...
          block comment
        | b
        -- this is another long ...
         multiline ...
         block comment
        | c
    ")) (u "a
        b
        c") = true.
Proof. vm_compute. reflexivity. Qed.

Example conf_018_while_line_910 : same strip (conf_render [] false (u "
        $i = 3
        while i:
            | $i
            $i = i - 1
    ")) (u "3
        2
        1") = true.
Proof. vm_compute. reflexivity. Qed.

Example conf_018_while_line_922 : same strip (conf_render [] false (u "
        $i = 0
        while i < 3
            | $i
            $i = i + 1
    ")) (u "0
        1
        2") = true.
Proof. vm_compute. reflexivity. Qed.

Example conf_018_while_line_927 : same strip (conf_render [] false (u "
        $i = 0
        while False / $i
    ")) (u "") = true.
Proof. vm_compute. reflexivity. Qed.

Example conf_018_while_line_941 : same strip (conf_render [] false (u "
        $i = 3
        while i > 0:
            | $i
            $i -= 1
        else:
            | Empty
    ")) (u "3
        2
        1") = true.
Proof. vm_compute. reflexivity. Qed.

Example conf_018_while_line_949 : same strip (conf_render [] false (u "
        $i = 3
        while i > 5:
            | $i
            $i -= 1
        else | Empty
    ")) (u "Empty") = true.
Proof. vm_compute. reflexivity. Qed.

Example conf_018_while_line_959 : same strip (conf_render [] false (u "
        $i = 3
        while i > 5:
            | $i
            $i -= 1
        else
            $i = 10
        | $i
    ")) (u "10") = true.
Proof. vm_compute. reflexivity. Qed.

Example conf_018_while_line_975 : same strip (conf_render [] false (u "
        $i = 3
        while i > 0:
            | $i
            $i -= 1
        else
            $i = 10
        | $i
    ")) (u "3
        2
        1
        0") = true.
Proof. vm_compute. reflexivity. Qed.
