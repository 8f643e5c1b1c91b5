(** Model of the HTML tags registered by std/html.py. *)
From Coq Require Import List NArith Bool String Ascii.
From Verif Require Import PyStr Html Value.
Import ListNotations.
Local Open Scope string_scope.
Local Open Scope list_scope.

(** str.split() of a string with single spaces *)
Fixpoint split_words (s : string) (acc : string) : list string :=
  match s with
  | EmptyString => [acc]
  | String c r => if Ascii.eqb c " "%char then acc :: split_words r EmptyString else split_words r (append acc (String c EmptyString))
  end.

(** std/html.py 29: _HTML_TAGS_VOID *)
Definition html_void : list str :=
  map u (split_words "area base br col command embed hr img input link meta param source track wbr" "").
(** std/html.py 30-36: _HTML_TAGS_NONVOID *)
Definition html_nonvoid : list str :=
  map u (split_words ("a abbr acronym address applet article aside audio b basefont bdi bdo big blockquote body " ++
                      "button canvas caption center cite code colgroup data datalist dd del details dfn dialog dir " ++
                      "div dl dt em fieldset figcaption figure font footer form frame frameset h1 h2 h3 h4 h5 h6 " ++
                      "head header html i iframe ins kbd label legend li main map mark meter nav noframes noscript " ++
                      "object ol optgroup option output p picture pre progress q rp rt ruby s samp script section " ++
                      "select small span strike strong style sub summary sup svg table tbody td template textarea " ++
                      "tfoot th thead time title tr tt u ul var video")%string "").

(** str.upper of ASCII letters; name.lower() of the names above is the name itself *)
Definition upper_ascii (n : str) : str := map (fun c => if (97 <=? c)%N && (c <=? 122)%N then (c - 32)%N else c) n.

(** std/html.py 38-47: _create and the loops; std/registry.py 12-30: Registry.tag. The identities of the tag
    objects are consecutive numbers. *)
Fixpoint create_tags (void : bool) (k : N) (names : list str) : list (str * tag) :=
  match names with
  | [] => []
  | n :: r => (n, Tag k n (KMarkup void HTML)) :: (upper_ascii n, Tag (k + 1) (upper_ascii n) (KMarkup void HTML)) :: create_tags void (k + 2) r
  end.
Definition html_registry : list (str * tag) := create_tags false 1000 html_nonvoid ++ create_tags true 2000 html_void.
