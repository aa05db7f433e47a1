(** GENERATED by tools/gen_standard_defs.py from
    packages/mitex/specs/latex/standard.typ:95-1186 (the definitions passed to
    process-spec; the local functions of lines 71-87 are replaced by what they
    return).  A handler is given by the line it is defined on. *)
From Verif Require Export Prelude.
Local Open Scope N_scope.
Definition standard_part_0 : list (text * definition N) := [
  ((tx "section"), define_cmd 1 (Some (tx "#heading(level: 1)")) None);
  ((tx "subsection"), define_cmd 1 (Some (tx "#heading(level: 2)")) None);
  ((tx "subsubsection"), define_cmd 1 (Some (tx "#heading(level: 3)")) None);
  ((tx "footnote"), define_cmd 1 (Some (tx "#footnote")) None);
  ((tx "cite"), define_cmd 1 (Some (tx "#mitexcite")) (Some 101));
  ((tx "emph"), define_cmd 1 (Some (tx "#emph")) None);
  ((tx "label"), define_cmd 1 (Some (tx "mitexlabel")) (Some 103));
  ((tx "tag"), define_cmd 1 (Some (tx "mitexlabel")) (Some 104));
  ((tx "ref"), define_cmd 1 (Some (tx "#mitexref")) (Some 105));
  ((tx "eqref"), define_cmd 1 (Some (tx "#mitexref")) None);
  ((tx "item"), define_sym [] None);
  ((tx "itemize"), define_env None (tx "is-itemize") None None);
  ((tx "enumerate"), define_env None (tx "is-enumerate") None None);
  ((tx "quote"), define_env None (tx "none") (Some (tx "quote(block: true)")) None);
  ((tx "abstract"), define_env None (tx "none") (Some (tx "quote(block: true)")) None);
  ((tx "figure"), Prelude.define_glob_env (tx "{,b}") (tx "is-figure") (Some (tx "figure")) None);
  ((tx "table"), Prelude.define_glob_env (tx "{,b}") (tx "is-figure") (Some (tx "figure")) None);
  ((tx "tabular"), define_env (Some 1) (tx "is-table") (Some (tx "table")) None);
  ((tx "centering"), define_sym [] None);
  ((tx "textwidth"), sym);
  ((tx "caption"), define_cmd 1 (Some (tx "mitexcaption")) (Some 119));
  ((tx "includegraphics"), define_glob_cmd (tx "{,b}t") (tx "#miteximage") (Some 120));
  ((tx "toprule"), define_glob_cmd (tx "{,b}") (tx "toprule") None);
  ((tx "midrule"), define_glob_cmd (tx "{,b}") (tx "midrule") None);
  ((tx "bottomrule"), define_glob_cmd (tx "{,b}") (tx "bottomrule") None);
  ((tx "hline"), define_sym [] None);
  ((tx "vline"), define_sym [] None);
  ((tx "!"), define_sym (tx "negthinspace") (Some 128));
  ((tx "negthinspace"), of_sym 129);
  ((tx "negthinmedspace"), of_sym 130);
  ((tx "negmedspace"), of_sym 131);
  ((tx "negthickspace"), of_sym 132);
  ((tx ","), define_sym (tx "thin") None);
  ((tx "thinspace"), define_sym (tx "thin") None);
  ((tx ">"), define_sym (tx "med") None);
  ((tx ":"), define_sym (tx "med") None);
  ((tx "medspace"), define_sym (tx "med") None);
  ((tx ";"), define_sym (tx "thick") None);
  ([], define_sym (tx "thick") None);
  ((tx "thickspace"), define_sym (tx "thick") None)
].
Definition standard_part_1 : list (text * definition N) := [
  ((tx "enspace"), of_sym 141);
  ((tx "nobreakspace"), define_sym (tx "space.nobreak") None);
  ((tx "space"), sym);
  ((tx "quad"), sym);
  ((tx "qquad"), define_sym (tx "wide") None);
  ((tx "phantom"), define_cmd 1 None (Some 146));
  ((tx "hphantom"), define_cmd 1 None (Some 147));
  ((tx "vphantom"), define_cmd 1 None (Some 148));
  ((tx "smash"), define_cmd 1 None (Some 149));
  ((tx "_"), define_sym (tx "\_") None);
  ((tx "^"), define_sym (tx "hat") None);
  ((tx "*"), define_sym [] None);
  ((tx "|"), define_sym (tx "||") None);
  ((tx "&"), define_sym (tx "amp") None);
  ((tx "#"), define_sym (tx "hash") None);
  ((tx "%"), define_sym (tx "%") None);
  ((tx "-"), define_sym (tx "-") None);
  ((tx "+"), define_sym (tx "+") None);
  ((tx "$"), define_sym (tx "dollar") None);
  ((tx "{"), define_sym (tx "\{") None);
  ((tx "}"), define_sym (tx "\}") None);
  ((tx "vert"), define_sym (tx "|") None);
  ((tx "lvert"), of_sym 164);
  ((tx "rvert"), of_sym 165);
  ((tx "Vert"), define_sym (tx "||") None);
  ((tx "lVert"), of_sym 167);
  ((tx "rVert"), of_sym 168);
  ((tx "lparen"), define_sym (tx "paren.l") None);
  ((tx "rparen"), define_sym (tx "paren.r") None);
  ((tx "lceil"), define_sym [8968] None);
  ((tx "rceil"), define_sym [8969] None);
  ((tx "lfloor"), define_sym [8970] None);
  ((tx "rfloor"), define_sym [8971] None);
  ((tx "displaystyle"), define_greedy_cmd (tx "mitexdisplay") (Some 176));
  ((tx "textstyle"), define_greedy_cmd (tx "mitexinline") (Some 177));
  ((tx "scriptstyle"), define_greedy_cmd (tx "mitexscript") (Some 178));
  ((tx "scriptscriptstyle"), define_greedy_cmd (tx "mitexsscript") (Some 179));
  ((tx "bf"), define_greedy_cmd (tx "mitexbold") (Some 180));
  ((tx "rm"), define_greedy_cmd (tx "mitexupright") (Some 181));
  ((tx "it"), define_greedy_cmd (tx "mitexitalic") (Some 182))
].
Definition standard_part_2 : list (text * definition N) := [
  ((tx "sf"), define_greedy_cmd (tx "mitexsans") (Some 183));
  ((tx "frak"), define_greedy_cmd (tx "mitexfrak") (Some 184));
  ((tx "tt"), define_greedy_cmd (tx "mitexmono") (Some 185));
  ((tx "cal"), define_greedy_cmd (tx "mitexcal") (Some 186));
  ((tx "bold"), define_cmd 1 (Some (tx "bold")) None);
  ((tx "mathbf"), define_cmd 1 (Some (tx "mitexmathbf")) (Some 188));
  ((tx "bm"), define_cmd 1 (Some (tx "bold")) None);
  ((tx "boldsymbol"), define_cmd 1 (Some (tx "bold")) None);
  ((tx "pmb"), define_cmd 1 (Some (tx "bold")) None);
  ((tx "mathrm"), define_cmd 1 (Some (tx "upright")) None);
  ((tx "mathit"), define_cmd 1 (Some (tx "italic")) None);
  ((tx "mathnormal"), define_cmd 1 (Some (tx "italic")) None);
  ((tx "mathsf"), define_cmd 1 (Some (tx "sans")) None);
  ((tx "mathfrak"), define_cmd 1 (Some (tx "frak")) None);
  ((tx "mathtt"), define_cmd 1 (Some (tx "mono")) None);
  ((tx "Bbb"), define_cmd 1 (Some (tx "bb")) None);
  ((tx "mathbb"), define_cmd 1 (Some (tx "bb")) None);
  ((tx "mathcal"), define_cmd 1 (Some (tx "cal")) None);
  ((tx "mathscr"), define_cmd 1 None (Some 201));
  ((tx "mathbin"), define_cmd 1 None (Some 205));
  ((tx "mathclose"), define_cmd 1 None (Some 206));
  ((tx "mathinner"), define_cmd 1 None (Some 207));
  ((tx "mathop"), define_cmd 1 None (Some 208));
  ((tx "mathopen"), define_cmd 1 None (Some 209));
  ((tx "mathord"), define_cmd 1 None (Some 210));
  ((tx "mathpunct"), define_cmd 1 None (Some 211));
  ((tx "mathrel"), define_cmd 1 None (Some 212));
  ((tx "big"), define_cmd 1 None (Some 213));
  ((tx "Big"), define_cmd 1 None (Some 214));
  ((tx "bigg"), define_cmd 1 None (Some 215));
  ((tx "Bigg"), define_cmd 1 None (Some 216));
  ((tx "bigl"), define_cmd 1 (Some (tx "big")) None);
  ((tx "Bigl"), define_cmd 1 (Some (tx "Big")) None);
  ((tx "biggl"), define_cmd 1 (Some (tx "bigg")) None);
  ((tx "Biggl"), define_cmd 1 (Some (tx "Bigg")) None);
  ((tx "bigm"), define_cmd 1 (Some (tx "big")) None);
  ((tx "Bigm"), define_cmd 1 (Some (tx "Big")) None);
  ((tx "biggm"), define_cmd 1 (Some (tx "bigg")) None);
  ((tx "Biggm"), define_cmd 1 (Some (tx "Bigg")) None);
  ((tx "bigr"), define_cmd 1 (Some (tx "big")) None)
].
Definition standard_part_3 : list (text * definition N) := [
  ((tx "Bigr"), define_cmd 1 (Some (tx "Big")) None);
  ((tx "biggr"), define_cmd 1 (Some (tx "bigg")) None);
  ((tx "Biggr"), define_cmd 1 (Some (tx "Bigg")) None);
  ((tx "Huge"), define_sym [] None);
  ((tx "normalsize"), define_sym [] None);
  ((tx "huge"), define_sym [] None);
  ((tx "small"), define_sym [] None);
  ((tx "footnotesize"), define_sym [] None);
  ((tx "Large"), define_sym [] None);
  ((tx "LARGE"), define_sym [] None);
  ((tx "scriptsize"), define_sym [] None);
  ((tx "large"), define_sym [] None);
  ((tx "tiny"), define_sym [] None);
  ((tx "color"), define_greedy_cmd (tx "#mitexcolor") (Some 241));
  ((tx "textcolor"), define_glob_cmd (tx "{,b}tt") (tx "#colortext") (Some 249));
  ((tx "colorbox"), define_glob_cmd (tx "{,b}tt") (tx "#mitexcolorbox") (Some 257));
  ((tx "limits"), left1_op (tx "limits"));
  ((tx "nolimits"), left1_op (tx "scripts"));
  ((tx "frac"), define_cmd 2 None (Some 269));
  ((tx "cfrac"), define_cmd 2 None (Some 271));
  ((tx "dfrac"), define_cmd 2 None (Some 272));
  ((tx "tfrac"), define_cmd 2 None (Some 273));
  ((tx "binom"), define_cmd 2 None None);
  ((tx "dbinom"), define_cmd 2 None (Some 275));
  ((tx "tbinom"), define_cmd 2 None (Some 276));
  ((tx "stackrel"), define_cmd 2 None (Some 277));
  ((tx "substack"), define_cmd 1 None (Some 278));
  ((tx "overset"), define_cmd 2 None (Some 279));
  ((tx "underset"), define_cmd 2 None (Some 280));
  ((tx "not"), define_cmd 1 (Some (tx "mitexnot")) (Some 282));
  ((tx "cancel"), define_cmd 1 None None);
  ((tx "xcancel"), define_cmd 1 None (Some 284));
  ((tx "bcancel"), define_cmd 1 None (Some 285));
  ((tx "sout"), define_cmd 1 None (Some 286));
  ((tx "grave"), define_cmd 1 (Some (tx "grave")) None);
  ((tx "acute"), define_cmd 1 (Some (tx "acute")) None);
  ((tx "hat"), define_cmd 1 (Some (tx "hat")) None);
  ((tx "widehat"), define_cmd 1 (Some (tx "hat")) None);
  ((tx "tilde"), define_cmd 1 (Some (tx "tilde")) None);
  ((tx "widetilde"), define_cmd 1 (Some (tx "tilde")) None)
].
Definition standard_part_4 : list (text * definition N) := [
  ((tx "bar"), define_cmd 1 (Some (tx "macron")) None);
  ((tx "breve"), define_cmd 1 (Some (tx "breve")) None);
  ((tx "dot"), define_cmd 1 (Some (tx "dot")) None);
  ((tx "ddot"), define_cmd 1 (Some (tx "dot.double")) None);
  ((tx "dddot"), define_cmd 1 (Some (tx "dot.triple")) None);
  ((tx "ddddot"), define_cmd 1 (Some (tx "dot.quad")) None);
  ((tx "H"), define_cmd 1 (Some (tx "acute.double")) None);
  ((tx "check"), define_cmd 1 (Some (tx "caron")) None);
  ((tx "widecheck"), define_cmd 1 (Some (tx "caron")) None);
  ((tx "u"), define_cmd 1 (Some (tx "breve")) None);
  ((tx "v"), define_cmd 1 (Some (tx "caron")) None);
  ((tx "r"), define_cmd 1 (Some (tx "circle")) None);
  ((tx "vec"), define_cmd 1 (Some (tx "arrow")) None);
  ((tx "overrightarrow"), define_cmd 1 (Some (tx "arrow")) None);
  ((tx "overleftarrow"), define_cmd 1 (Some (tx "arrow.l")) None);
  ((tx "overline"), cmd1);
  ((tx "underline"), cmd1);
  ((tx "overbrace"), define_cmd 1 (Some (tx "mitexoverbrace")) (Some 310));
  ((tx "underbrace"), define_cmd 1 (Some (tx "mitexunderbrace")) (Some 311));
  ((tx "overbracket"), define_cmd 1 (Some (tx "mitexoverbracket")) (Some 312));
  ((tx "underbracket"), define_cmd 1 (Some (tx "mitexunderbracket")) (Some 313));
  ((tx "boxed"), define_cmd 1 None (Some 314));
  ((tx "alpha"), sym);
  ((tx "beta"), sym);
  ((tx "gamma"), sym);
  ((tx "delta"), sym);
  ((tx "epsilon"), define_sym (tx "epsilon.alt") None);
  ((tx "zeta"), sym);
  ((tx "eta"), sym);
  ((tx "theta"), sym);
  ((tx "iota"), sym);
  ((tx "kappa"), sym);
  ((tx "lambda"), sym);
  ((tx "mu"), sym);
  ((tx "nu"), sym);
  ((tx "xi"), sym);
  ((tx "omicron"), sym);
  ((tx "pi"), sym);
  ((tx "rho"), sym);
  ((tx "sigma"), sym)
].
Definition standard_part_5 : list (text * definition N) := [
  ((tx "tau"), sym);
  ((tx "upsilon"), sym);
  ((tx "phi"), define_sym (tx "phi.alt") None);
  ((tx "chi"), sym);
  ((tx "psi"), sym);
  ((tx "omega"), sym);
  ((tx "Alpha"), sym);
  ((tx "Beta"), sym);
  ((tx "Gamma"), sym);
  ((tx "Delta"), sym);
  ((tx "Epsilon"), sym);
  ((tx "Zeta"), sym);
  ((tx "Eta"), sym);
  ((tx "Theta"), sym);
  ((tx "Iota"), sym);
  ((tx "Kappa"), sym);
  ((tx "Lambda"), sym);
  ((tx "Mu"), sym);
  ((tx "Nu"), sym);
  ((tx "Xi"), sym);
  ((tx "Omicron"), sym);
  ((tx "Pi"), sym);
  ((tx "Rho"), sym);
  ((tx "Sigma"), sym);
  ((tx "Tau"), sym);
  ((tx "Upsilon"), sym);
  ((tx "Phi"), sym);
  ((tx "Chi"), sym);
  ((tx "Psi"), sym);
  ((tx "Omega"), sym);
  ((tx "varbeta"), define_sym (tx "beta.alt") None);
  ((tx "varepsilon"), define_sym (tx "epsilon") None);
  ((tx "varkappa"), define_sym (tx "kappa.alt") None);
  ((tx "varphi"), define_sym (tx "phi") None);
  ((tx "varpi"), define_sym (tx "pi.alt") None);
  ((tx "varrho"), define_sym (tx "rho.alt") None);
  ((tx "varsigma"), define_sym (tx "sigma.alt") None);
  ((tx "vartheta"), define_sym (tx "theta.alt") None);
  ((tx "ell"), sym);
  ((tx "sin"), sym)
].
Definition standard_part_6 : list (text * definition N) := [
  ((tx "cos"), sym);
  ((tx "tan"), sym);
  ((tx "cot"), sym);
  ((tx "sec"), sym);
  ((tx "csc"), sym);
  ((tx "arcsin"), sym);
  ((tx "arccos"), sym);
  ((tx "arctan"), sym);
  ((tx "sinh"), sym);
  ((tx "cosh"), sym);
  ((tx "tanh"), sym);
  ((tx "coth"), sym);
  ((tx "ln"), sym);
  ((tx "log"), sym);
  ((tx "lg"), sym);
  ((tx "lim"), sym);
  ((tx "limsup"), sym);
  ((tx "liminf"), sym);
  ((tx "hom"), sym);
  ((tx "det"), sym);
  ((tx "exp"), sym);
  ((tx "deg"), sym);
  ((tx "gcd"), sym);
  ((tx "lcm"), sym);
  ((tx "dim"), sym);
  ((tx "ker"), sym);
  ((tx "arg"), sym);
  ((tx "Pr"), sym);
  ((tx "max"), sym);
  ((tx "min"), sym);
  ((tx "argmax"), sym);
  ((tx "argmin"), sym);
  ((tx "sup"), sym);
  ((tx "inf"), sym);
  ((tx "sum"), sym);
  ((tx "prod"), define_sym (tx "product") None);
  ((tx "int"), define_sym (tx "integral") None);
  ((tx "iint"), define_sym (tx "integral.double") None);
  ((tx "iiint"), define_sym (tx "integral.triple") None);
  ((tx "oint"), define_sym (tx "integral.cont") None)
].
Definition standard_part_7 : list (text * definition N) := [
  ((tx "oiint"), define_sym (tx "integral.surf") None);
  ((tx "oiiint"), define_sym (tx "integral.vol") None);
  ((tx "mod"), define_sym (tx "mod") None);
  ((tx "bmod"), define_sym (tx "mod") None);
  ((tx "cdot"), define_sym (tx "dot.c") None);
  ((tx "cdotp"), define_sym (tx "dot.c") None);
  ((tx "sdot"), define_sym (tx "dot.c") None);
  ((tx "times"), define_sym (tx "times") None);
  ((tx "oplus"), define_sym (tx "plus.o") None);
  ((tx "ominus"), define_sym (tx "minus.o") None);
  ((tx "pm"), define_sym (tx "plus.minus") None);
  ((tx "plusmn"), define_sym (tx "plus.minus") None);
  ((tx "mp"), define_sym (tx "minus.plus") None);
  ((tx "div"), define_sym (tx "div") None);
  ((tx "star"), define_sym (tx "star") None);
  ((tx "cap"), define_sym (tx "inter") None);
  ((tx "cup"), define_sym (tx "union") None);
  ((tx "in"), define_sym (tx "in") None);
  ((tx "isin"), define_sym (tx "in") None);
  ((tx "notin"), define_sym (tx "in.not") None);
  ((tx "subset"), define_sym (tx "subset") None);
  ((tx "subseteq"), define_sym (tx "subset.eq") None);
  ((tx "subsetneqq"), define_sym [10955] None);
  ((tx "ne"), define_sym (tx "!=") None);
  ((tx "neq"), define_sym (tx "!=") None);
  ((tx "lt"), define_sym (tx "<") None);
  ((tx "gt"), define_sym (tx ">") None);
  ((tx "le"), define_sym (tx "<=") None);
  ((tx "ge"), define_sym (tx ">=") None);
  ((tx "leq"), define_sym (tx "<=") None);
  ((tx "geq"), define_sym (tx ">=") None);
  ((tx "leqslant"), define_sym (tx "lt.eq.slant") None);
  ((tx "geqslant"), define_sym (tx "gt.eq.slant") None);
  ((tx "eqslantgtr"), define_sym [10902] None);
  ((tx "eqslantless"), define_sym [10901] None);
  ((tx "approx"), define_sym (tx "approx") None);
  ((tx "leftarrow"), define_sym (tx "<-") None);
  ((tx "rightarrow"), define_sym (tx "->") None);
  ((tx "leftrightarrow"), define_sym (tx "<->") None);
  ((tx "Leftarrow"), define_sym (tx "arrow.l.double") None)
].
Definition standard_part_8 : list (text * definition N) := [
  ((tx "Rightarrow"), define_sym (tx "=>") None);
  ((tx "Leftrightarrow"), define_sym (tx "<=>") None);
  ((tx "larr"), define_sym (tx "<-") None);
  ((tx "rarr"), define_sym (tx "->") None);
  ((tx "lrarr"), define_sym (tx "<->") None);
  ((tx "lArr"), define_sym (tx "arrow.l.double") None);
  ((tx "rArr"), define_sym (tx "=>") None);
  ((tx "lrArr"), define_sym (tx "<=>") None);
  ((tx "Larr"), define_sym (tx "arrow.l.double") None);
  ((tx "Rarr"), define_sym (tx "=>") None);
  ((tx "Lrarr"), define_sym (tx "<=>") None);
  ((tx "longleftarrow"), define_sym (tx "<--") None);
  ((tx "longrightarrow"), define_sym (tx "-->") None);
  ((tx "longleftrightarrow"), define_sym (tx "<-->") None);
  ((tx "Longleftarrow"), define_sym (tx "<==") None);
  ((tx "Longrightarrow"), define_sym (tx "==>") None);
  ((tx "Longleftrightarrow"), define_sym (tx "<==>") None);
  ((tx "to"), define_sym (tx "->") None);
  ((tx "implies"), define_sym (tx "==>") None);
  ((tx "impliedby"), define_sym (tx "<==") None);
  ((tx "gets"), define_sym (tx "<-") None);
  ((tx "mapsto"), define_sym (tx "|->") None);
  ((tx "infty"), define_sym (tx "oo") None);
  ((tx "lbrack"), define_sym (tx "bracket.l") None);
  ((tx "rbrack"), define_sym (tx "bracket.r") None);
  ((tx "lgroup"), define_sym [10222] None);
  ((tx "rgroup"), define_sym [10223] None);
  ((tx "llbracket"), define_sym (tx "bracket.stroked.l") None);
  ((tx "rrbracket"), define_sym (tx "bracket.stroked.r") None);
  ((tx "angle"), define_sym (tx "angle") None);
  ((tx "lang"), define_sym (tx "chevron.l") None);
  ((tx "rang"), define_sym (tx "chevron.r") None);
  ((tx "langle"), define_sym (tx "chevron.l") None);
  ((tx "rangle"), define_sym (tx "chevron.r") None);
  ((tx "measuredangle"), define_sym (tx "angle.arc") None);
  ((tx "sphericalangle"), define_sym (tx "angle.spheric") None);
  ((tx "ast"), define_sym (tx "ast") None);
  ((tx "checkmark"), define_sym (tx "checkmark") None);
  ((tx "circledast"), define_sym (tx "convolve.o") None);
  ((tx "backslash"), define_sym (tx "backslash") None)
].
Definition standard_part_9 : list (text * definition N) := [
  ((tx "dagger"), define_sym (tx "dagger") None);
  ((tx "ddagger"), define_sym (tx "dagger.double") None);
  ((tx "circleddash"), define_sym (tx "dash.o") None);
  ((tx "odot"), define_sym (tx "dot.o") None);
  ((tx "bigodot"), define_sym (tx "dot.o.big") None);
  ((tx "boxdot"), define_sym (tx "dot.square") None);
  ((tx "dots"), define_sym (tx "dots.h") None);
  ((tx "cdots"), define_sym (tx "dots.h.c") None);
  ((tx "ldots"), define_sym (tx "dots.h") None);
  ((tx "vdots"), define_sym (tx "dots.v") None);
  ((tx "ddots"), define_sym (tx "dots.down") None);
  ((tx "dotsb"), define_sym (tx "dots.h.c") None);
  ((tx "dotsc"), define_sym (tx "dots.h") None);
  ((tx "dotsi"), define_sym (tx "dots.h.c") None);
  ((tx "dotsm"), define_sym (tx "dots.h.c") None);
  ((tx "dotso"), define_sym (tx "dots.h") None);
  ((tx "sim"), define_sym (tx "tilde") None);
  ((tx "simeq"), define_sym (tx "tilde.eq") None);
  ((tx "backsimeq"), define_sym (tx "tilde.eq.rev") None);
  ((tx "cong"), define_sym (tx "tilde.equiv") None);
  ((tx "ncong"), define_sym (tx "tilde.equiv.not") None);
  ((tx "nsim"), define_sym (tx "tilde.not") None);
  ((tx "backsim"), define_sym (tx "tilde.rev") None);
  ((tx "prime"), define_sym (tx "prime") None);
  ((tx "backprime"), define_sym (tx "prime.rev") None);
  ((tx "bigoplus"), define_sym (tx "plus.o.big") None);
  ((tx "dotplus"), define_sym (tx "plus.dot") None);
  ((tx "boxplus"), define_sym (tx "plus.square") None);
  ((tx "boxminus"), define_sym (tx "minus.square") None);
  ((tx "eqsim"), define_sym (tx "minus.tilde") None);
  ((tx "otimes"), define_sym (tx "times.o") None);
  ((tx "bigotimes"), define_sym (tx "times.o.big") None);
  ((tx "divideontimes"), define_sym (tx "times.div") None);
  ((tx "leftthreetimes"), define_sym (tx "times.three.l") None);
  ((tx "rightthreetimes"), define_sym (tx "times.three.r") None);
  ((tx "ltimes"), define_sym (tx "times.l") None);
  ((tx "rtimes"), define_sym (tx "times.r") None);
  ((tx "boxtimes"), define_sym (tx "times.square") None);
  ((tx "triangleq"), define_sym (tx "eq.delta") None);
  ((tx "curlyeqprec"), define_sym (tx "eq.prec") None)
].
Definition standard_part_10 : list (text * definition N) := [
  ((tx "curlyeqsucc"), define_sym (tx "eq.succ") None);
  ((tx "gtrdot"), define_sym (tx "gt.dot") None);
  ((tx "gg"), define_sym (tx "gt.double") None);
  ((tx "gtreqless"), define_sym (tx "gt.eq.lt") None);
  ((tx "gtreqqless"), define_sym [10892] None);
  ((tx "gtrapprox"), define_sym (tx "gt.approx") None);
  ((tx "ngeq"), define_sym (tx "gt.eq.not") None);
  ((tx "geqq"), define_sym (tx "gt.equiv") None);
  ((tx "ngeqq"), of_sym 545);
  ((tx "gtrless"), define_sym (tx "gt.lt") None);
  ((tx "gneqq"), define_sym (tx "gt.nequiv") None);
  ((tx "ngtr"), define_sym (tx "gt.not") None);
  ((tx "gnsim"), define_sym (tx "gt.ntilde") None);
  ((tx "gtrsim"), define_sym (tx "gt.tilde") None);
  ((tx "vartriangleright"), define_sym (tx "gt.tri") None);
  ((tx "trianglerighteq"), define_sym (tx "gt.tri.eq") None);
  ((tx "ntrianglerighteq"), define_sym (tx "gt.tri.eq.not") None);
  ((tx "ntriangleright"), define_sym (tx "gt.tri.not") None);
  ((tx "ggg"), define_sym (tx "gt.triple") None);
  ((tx "lessdot"), define_sym (tx "lt.dot") None);
  ((tx "ll"), define_sym (tx "lt.double") None);
  ((tx "lesseqgtr"), define_sym (tx "lt.eq.gt") None);
  ((tx "nleq"), define_sym (tx "lt.eq.not") None);
  ((tx "nleqslant"), of_sym 560);
  ((tx "leqq"), define_sym (tx "lt.equiv") None);
  ((tx "nleqq"), of_sym 562);
  ((tx "lessgtr"), define_sym (tx "lt.gt") None);
  ((tx "lneqq"), define_sym (tx "lt.nequiv") None);
  ((tx "nless"), define_sym (tx "lt.not") None);
  ((tx "lnsim"), define_sym (tx "lt.ntilde") None);
  ((tx "lesssim"), define_sym (tx "lt.tilde") None);
  ((tx "vartriangleleft"), define_sym (tx "lt.tri") None);
  ((tx "trianglelefteq"), define_sym (tx "lt.tri.eq") None);
  ((tx "ntrianglelefteq"), define_sym (tx "lt.tri.eq.not") None);
  ((tx "ntriangleleft"), define_sym (tx "lt.tri.not") None);
  ((tx "lll"), define_sym (tx "lt.triple") None);
  ((tx "approxeq"), define_sym (tx "approx.eq") None);
  ((tx "prec"), define_sym (tx "prec") None);
  ((tx "precapprox"), define_sym (tx "prec.approx") None);
  ((tx "preceq"), define_sym (tx "prec.eq") None)
].
Definition standard_part_11 : list (text * definition N) := [
  ((tx "preccurlyeq"), define_sym (tx "prec.eq") None);
  ((tx "npreceq"), define_sym (tx "prec.eq.not") None);
  ((tx "precnapprox"), define_sym (tx "prec.napprox") None);
  ((tx "nprec"), define_sym (tx "prec.not") None);
  ((tx "precnsim"), define_sym (tx "prec.ntilde") None);
  ((tx "precsim"), define_sym (tx "prec.tilde") None);
  ((tx "succ"), define_sym (tx "succ") None);
  ((tx "succapprox"), define_sym (tx "succ.approx") None);
  ((tx "succeq"), define_sym (tx "succ.eq") None);
  ((tx "succcurlyeq"), define_sym (tx "succ.eq") None);
  ((tx "nsucceq"), define_sym (tx "succ.eq.not") None);
  ((tx "succnapprox"), define_sym (tx "succ.napprox") None);
  ((tx "nsucc"), define_sym (tx "succ.not") None);
  ((tx "succnsim"), define_sym (tx "succ.ntilde") None);
  ((tx "succsim"), define_sym (tx "succ.tilde") None);
  ((tx "equiv"), define_sym (tx "equiv") None);
  ((tx "propto"), define_sym (tx "prop") None);
  ((tx "empty"), define_sym (tx "nothing") None);
  ((tx "emptyset"), define_sym (tx "nothing") None);
  ((tx "varnothing"), define_sym (tx "nothing") None);
  ((tx "o"), define_sym (tx "nothing") None);
  ((tx "O"), define_sym (tx "nothing") None);
  ((tx "osplash"), define_sym [8856] None);
  ((tx "setminus"), define_sym (tx "without") None);
  ((tx "And"), define_sym (tx "amp") None);
  ((tx "bigcirc"), define_sym (tx "circle.stroked.big") None);
  ((tx "smallsetminus"), define_sym (tx "without") None);
  ((tx "complement"), define_sym (tx "complement") None);
  ((tx "ni"), define_sym (tx "in.rev") None);
  ((tx "notni"), define_sym (tx "in.rev.not") None);
  ((tx "Subset"), define_sym (tx "subset.double") None);
  ((tx "nsubseteq"), define_sym (tx "subset.eq.not") None);
  ((tx "nsubseteqq"), of_sym 609);
  ((tx "sqsubseteq"), define_sym (tx "subset.eq.sq") None);
  ((tx "subsetneq"), define_sym (tx "subset.neq") None);
  ((tx "supset"), define_sym (tx "supset") None);
  ((tx "Supset"), define_sym (tx "supset.double") None);
  ((tx "supseteq"), define_sym (tx "supset.eq") None);
  ((tx "nsupseteq"), define_sym (tx "supset.eq.not") None);
  ((tx "nsupseteqq"), of_sym 616)
].
Definition standard_part_12 : list (text * definition N) := [
  ((tx "sqsupseteq"), define_sym (tx "supset.eq.sq") None);
  ((tx "supsetneq"), define_sym (tx "supset.neq") None);
  ((tx "bigcup"), define_sym (tx "union.big") None);
  ((tx "Cup"), define_sym (tx "union.double") None);
  ((tx "uplus"), define_sym (tx "union.plus") None);
  ((tx "biguplus"), define_sym (tx "union.plus.big") None);
  ((tx "sqcup"), define_sym (tx "union.sq") None);
  ((tx "bigsqcup"), define_sym (tx "union.sq.big") None);
  ((tx "bigcap"), define_sym (tx "inter.big") None);
  ((tx "Cap"), define_sym (tx "inter.double") None);
  ((tx "sqcap"), define_sym (tx "inter.sq") None);
  ((tx "partial"), define_sym (tx "partial") None);
  ((tx "nabla"), define_sym (tx "nabla") None);
  ((tx "coprod"), define_sym (tx "product.co") None);
  ((tx "forall"), define_sym (tx "forall") None);
  ((tx "exist"), define_sym (tx "exists") None);
  ((tx "exists"), define_sym (tx "exists") None);
  ((tx "nexists"), define_sym (tx "exists.not") None);
  ((tx "top"), define_sym (tx "top") None);
  ((tx "bot"), define_sym (tx "bot") None);
  ((tx "neg"), define_sym (tx "not") None);
  ((tx "lnot"), define_sym (tx "not") None);
  ((tx "land"), define_sym (tx "and") None);
  ((tx "wedge"), define_sym (tx "and") None);
  ((tx "lor"), define_sym (tx "or") None);
  ((tx "bigwedge"), define_sym (tx "and.big") None);
  ((tx "curlywedge"), define_sym (tx "and.curly") None);
  ((tx "vee"), define_sym (tx "or") None);
  ((tx "bigvee"), define_sym (tx "or.big") None);
  ((tx "curlyvee"), define_sym (tx "or.curly") None);
  ((tx "models"), define_sym (tx "models") None);
  ((tx "therefore"), define_sym (tx "therefore") None);
  ((tx "because"), define_sym (tx "because") None);
  ((tx "blacksquare"), define_sym (tx "qed") None);
  ((tx "circ"), define_sym (tx "compose") None);
  ((tx "multimap"), define_sym (tx "multimap") None);
  ((tx "mid"), define_sym (tx "divides") None);
  ((tx "nmid"), define_sym (tx "divides.not") None);
  ((tx "wr"), define_sym (tx "wreath") None);
  ((tx "parallel"), define_sym (tx "parallel") None)
].
Definition standard_part_13 : list (text * definition N) := [
  ((tx "shortparallel"), define_sym (tx "parallel") None);
  ((tx "nparallel"), define_sym (tx "parallel.not") None);
  ((tx "perp"), define_sym (tx "perp") None);
  ((tx "Join"), define_sym (tx "join") None);
  ((tx "pounds"), define_sym (tx "pound") None);
  ((tx "clubsuit"), define_sym (tx "suit.club") None);
  ((tx "spadesuit"), define_sym (tx "suit.spade") None);
  ((tx "bull"), define_sym (tx "bullet") None);
  ((tx "bullet"), define_sym (tx "bullet") None);
  ((tx "circledcirc"), define_sym (tx "compose.o") None);
  ((tx "rhd"), define_sym (tx "triangle.stroked.r") None);
  ((tx "lhd"), define_sym (tx "triangle.stroked.l") None);
  ((tx "triangle"), define_sym (tx "triangle.stroked.t") None);
  ((tx "bigtriangleup"), define_sym (tx "triangle.stroked.t") None);
  ((tx "bigtriangledown"), define_sym (tx "triangle.stroked.b") None);
  ((tx "triangleright"), define_sym (tx "triangle.stroked.small.r") None);
  ((tx "triangledown"), define_sym (tx "triangle.stroked.small.b") None);
  ((tx "triangleleft"), define_sym (tx "triangle.stroked.small.l") None);
  ((tx "vartriangle"), define_sym (tx "triangle.stroked.small.t") None);
  ((tx "square"), define_sym (tx "square.stroked") None);
  ((tx "Diamond"), define_sym (tx "diamond.stroked") None);
  ((tx "diamond"), define_sym (tx "diamond.stroked.small") None);
  ((tx "diamonds"), define_sym (tx "diamond.stroked") None);
  ((tx "diamondsuit"), define_sym (tx "diamond.stroked") None);
  ((tx "lozenge"), define_sym (tx "lozenge.stroked") None);
  ((tx "blacklozenge"), define_sym (tx "lozenge.filled") None);
  ((tx "bigstar"), define_sym (tx "star.stroked") None);
  ((tx "longmapsto"), define_sym (tx "arrow.r.long.bar") None);
  ((tx "nRightarrow"), define_sym (tx "arrow.r.double.not") None);
  ((tx "hookrightarrow"), define_sym (tx "arrow.r.hook") None);
  ((tx "looparrowright"), define_sym (tx "arrow.r.loop") None);
  ((tx "nrightarrow"), define_sym (tx "arrow.r.not") None);
  ((tx "rightsquigarrow"), define_sym (tx "arrow.r.squiggly") None);
  ((tx "rightarrowtail"), define_sym (tx "arrow.r.tail") None);
  ((tx "Rrightarrow"), define_sym (tx "arrow.r.triple") None);
  ((tx "twoheadrightarrow"), define_sym (tx "arrow.r.twohead") None);
  ((tx "nLeftarrow"), define_sym (tx "arrow.l.double.not") None);
  ((tx "hookleftarrow"), define_sym (tx "arrow.l.hook") None);
  ((tx "looparrowleft"), define_sym (tx "arrow.l.loop") None);
  ((tx "nleftarrow"), define_sym (tx "arrow.l.not") None)
].
Definition standard_part_14 : list (text * definition N) := [
  ((tx "leftarrowtail"), define_sym (tx "arrow.l.tail") None);
  ((tx "Lleftarrow"), define_sym (tx "arrow.l.triple") None);
  ((tx "twoheadleftarrow"), define_sym (tx "arrow.l.twohead") None);
  ((tx "uparrow"), define_sym (tx "arrow.t") None);
  ((tx "Uparrow"), define_sym (tx "arrow.t.double") None);
  ((tx "downarrow"), define_sym (tx "arrow.b") None);
  ((tx "Downarrow"), define_sym (tx "arrow.b.double") None);
  ((tx "iff"), define_sym (tx "arrow.l.r.double.long") None);
  ((tx "nLeftrightarrow"), define_sym (tx "arrow.l.r.double.not") None);
  ((tx "nleftrightarrow"), define_sym (tx "arrow.l.r.not") None);
  ((tx "leftrightsquigarrow"), define_sym (tx "arrow.l.r.wave") None);
  ((tx "updownarrow"), define_sym (tx "arrow.t.b") None);
  ((tx "Updownarrow"), define_sym (tx "arrow.t.b.double") None);
  ((tx "nearrow"), define_sym (tx "arrow.tr") None);
  ((tx "searrow"), define_sym (tx "arrow.br") None);
  ((tx "nwarrow"), define_sym (tx "arrow.tl") None);
  ((tx "swarrow"), define_sym (tx "arrow.bl") None);
  ((tx "circlearrowleft"), define_sym (tx "arrow.ccw") None);
  ((tx "curvearrowleft"), define_sym (tx "arrow.ccw.half") None);
  ((tx "circlearrowright"), define_sym (tx "arrow.cw") None);
  ((tx "curvearrowright"), define_sym (tx "arrow.cw.half") None);
  ((tx "rightrightarrows"), define_sym (tx "arrows.rr") None);
  ((tx "leftleftarrows"), define_sym (tx "arrows.ll") None);
  ((tx "upuparrows"), define_sym (tx "arrows.tt") None);
  ((tx "downdownarrows"), define_sym (tx "arrows.bb") None);
  ((tx "leftrightarrows"), define_sym (tx "arrows.lr") None);
  ((tx "rightleftarrows"), define_sym (tx "arrows.rl") None);
  ((tx "rightharpoonup"), define_sym (tx "harpoon.rt") None);
  ((tx "rightharpoondown"), define_sym (tx "harpoon.rb") None);
  ((tx "leftharpoonup"), define_sym (tx "harpoon.lt") None);
  ((tx "leftharpoondown"), define_sym (tx "harpoon.lb") None);
  ((tx "upharpoonleft"), define_sym (tx "harpoon.tl") None);
  ((tx "upharpoonright"), define_sym (tx "harpoon.tr") None);
  ((tx "downharpoonleft"), define_sym (tx "harpoon.bl") None);
  ((tx "downharpoonright"), define_sym (tx "harpoon.br") None);
  ((tx "leftrightharpoons"), define_sym (tx "harpoons.ltrb") None);
  ((tx "rightleftharpoons"), define_sym (tx "harpoons.rtlb") None);
  ((tx "vdash"), define_sym (tx "tack.r") None);
  ((tx "nvdash"), define_sym (tx "tack.r.not") None);
  ((tx "vDash"), define_sym (tx "tack.r.double") None)
].
Definition standard_part_15 : list (text * definition N) := [
  ((tx "nvDash"), define_sym (tx "tack.r.double.not") None);
  ((tx "dashv"), define_sym (tx "tack.l") None);
  ((tx "hbar"), define_sym (tx "planck") None);
  ((tx "hslash"), define_sym (tx "planck") None);
  ((tx "Re"), define_sym (tx "Re") None);
  ((tx "Im"), define_sym (tx "Im") None);
  ((tx "AA"), define_sym (tx "circle(A)") None);
  ((tx "aa"), define_sym (tx "circle(A)") None);
  ((tx "Box"), define_sym (tx "ballot") None);
  ((tx "N"), define_sym (tx "NN") None);
  ((tx "natnums"), define_sym (tx "NN") None);
  ((tx "natural"), define_sym [9838] None);
  ((tx "P"), define_sym (tx "pilcrow") None);
  ((tx "Q"), define_sym (tx "QQ") None);
  ((tx "R"), define_sym (tx "RR") None);
  ((tx "Z"), define_sym (tx "ZZ") None);
  ((tx "S"), define_sym (tx "section") None);
  ((tx "sect"), define_sym (tx "section") None);
  ((tx "AE"), define_sym [198] None);
  ((tx "ae"), define_sym [230] None);
  ((tx "alef"), define_sym (tx "aleph") None);
  ((tx "alefsym"), define_sym (tx "aleph") None);
  ((tx "aleph"), define_sym (tx "aleph") None);
  ((tx "amalg"), define_sym (tx "product.co") None);
  ((tx "arctg"), of_sym 761);
  ((tx "asymp"), define_sym [8781] None);
  ((tx "ch"), of_sym 763);
  ((tx "circeq"), define_sym [8791] None);
  ((tx "colon"), define_sym (tx "colon") None);
  ((tx "cth"), of_sym 766);
  ((tx "dag"), define_sym (tx "dagger") None);
  ((tx "Dagger"), define_sym (tx "dagger.double") None);
  ((tx "ddag"), define_sym (tx "dagger.double") None);
  ((tx "daleth"), define_sym [8504] None);
  ((tx "sharp"), define_sym [9839] None);
  ((tx "flat"), define_sym [9837] None);
  ((tx "i"), define_sym (tx "dotless.i") None);
  ((tx "j"), define_sym (tx "dotless.j") None);
  ((tx "imath"), define_sym (tx "dotless.i") None);
  ((tx "jmath"), define_sym (tx "dotless.j") None)
].
Definition standard_part_16 : list (text * definition N) := [
  ((tx "smallsmile"), define_sym [8995] None);
  ((tx "smile"), define_sym [8995] None);
  ((tx "ss"), define_sym [223] None);
  ((tx "surd"), define_sym [92; 8730] None);
  ((tx "tg"), define_sym (tx "tg") None);
  ((tx "th"), of_sym 782);
  ((tx "weierp"), define_sym [8472] None);
  ((tx "wp"), define_sym [8472] None);
  ((tx "lbrace"), define_sym (tx "\{") None);
  ((tx "rbrace"), define_sym (tx "\}") None);
  ((tx "doteq"), define_sym [8784] None);
  ((tx "Vdash"), define_sym [8873] None);
  ((tx "Doteq"), define_sym [8785] None);
  ((tx "Vvdash"), define_sym [8874] None);
  ((tx "gnapprox"), define_sym [10890] None);
  ((tx "ngeqslant"), define_sym (tx "gt.eq.not") None);
  ((tx "precneqq"), define_sym (tx "prec.nequiv") None);
  ((tx "gneq"), define_sym [10888] None);
  ((tx "approxcolon"), define_sym (tx "approx:") None);
  ((tx "approxcoloncolon"), define_sym (tx "approx::") None);
  ((tx "backepsilon"), define_sym (tx "in.rev.small") None);
  ((tx "barwedge"), define_sym [8892] None);
  ((tx "beth"), define_sym (tx "beth") None);
  ((tx "between"), define_sym [8812] None);
  ((tx "bigdot"), define_sym (tx "dot.o.big") None);
  ((tx "bigplus"), define_sym (tx "plus.o.big") None);
  ((tx "bigtimes"), define_sym (tx "times.o.big") None);
  ((tx "blacktriangle"), define_sym (tx "triangle.filled.t") None);
  ((tx "blacktriangledown"), define_sym (tx "triangle.filled.b") None);
  ((tx "blacktriangleleft"), define_sym (tx "triangle.filled.l") None);
  ((tx "blacktriangleright"), define_sym (tx "triangle.filled.r") None);
  ((tx "bowtie"), define_sym [8904] None);
  ((tx "Bumpeq"), define_sym [8782] None);
  ((tx "bumpeq"), define_sym [8783] None);
  ((tx "centerdot"), define_sym (tx "dot.op") None);
  ((tx "circledR"), define_sym [174] None);
  ((tx "circledS"), define_sym [9416] None);
  ((tx "clubs"), define_sym (tx "suit.club") None);
  ((tx "cnums"), define_sym (tx "CC") None);
  ((tx "Colonapprox"), define_sym (tx "::approx") None)
].
Definition standard_part_17 : list (text * definition N) := [
  ((tx "colonapprox"), define_sym (tx ":approx") None);
  ((tx "coloncolon"), define_sym (tx "::") None);
  ((tx "coloncolonapprox"), define_sym (tx "::approx") None);
  ((tx "coloncolonequals"), define_sym (tx "::=") None);
  ((tx "coloncolonminus"), define_sym [58; 58; 8722] None);
  ((tx "coloncolonsim"), define_sym (tx "::tilde.op") None);
  ((tx "Coloneq"), define_sym [58; 58; 8722] None);
  ((tx "coloneq"), define_sym [58; 8722] None);
  ((tx "colonequals"), define_sym (tx ":=") None);
  ((tx "Coloneqq"), define_sym (tx "::=") None);
  ((tx "coloneqq"), define_sym (tx ":=") None);
  ((tx "colonminus"), define_sym [58; 8722] None);
  ((tx "Colonsim"), define_sym (tx "::tilde.op") None);
  ((tx "colonsim"), define_sym (tx ":tilde.op") None);
  ((tx "Complex"), define_sym (tx "CC") None);
  ((tx "copyright"), define_sym (tx "copyright") None);
  ((tx "ctg"), define_sym (tx "ctg") None);
  ((tx "Darr"), define_sym (tx "arrow.b.double") None);
  ((tx "dArr"), define_sym (tx "arrow.b.double") None);
  ((tx "darr"), define_sym (tx "arrow.b") None);
  ((tx "dashleftarrow"), define_sym (tx "arrow.l.dash") None);
  ((tx "dashrightarrow"), define_sym (tx "arrow.r.dash") None);
  ((tx "dbcolon"), define_sym (tx "::") None);
  ((tx "degree"), define_sym (tx "degree") None);
  ((tx "digamma"), define_sym [989] None);
  ((tx "diagdown"), define_sym [9586] None);
  ((tx "diagup"), define_sym [9585] None);
  ((tx "doteqdot"), define_sym [8785] None);
  ((tx "doublebarwedge"), define_sym [10846] None);
  ((tx "doublecap"), define_sym (tx "inter.double") None);
  ((tx "doublecup"), define_sym (tx "union.double") None);
  ((tx "eqcirc"), define_sym [8790] None);
  ((tx "Eqcolon"), define_sym [8722; 58; 58] None);
  ((tx "eqcolon"), define_sym (tx "dash.colon") None);
  ((tx "Eqqcolon"), define_sym (tx "=::") None);
  ((tx "eqqcolon"), define_sym (tx "=:") None);
  ((tx "equalscolon"), define_sym (tx "=:") None);
  ((tx "equalscoloncolon"), define_sym (tx "=::") None);
  ((tx "eth"), define_sym [240] None);
  ((tx "fallingdotseq"), define_sym [8786] None)
].
Definition standard_part_18 : list (text * definition N) := [
  ((tx "Finv"), define_sym [8498] None);
  ((tx "frown"), define_sym [8994] None);
  ((tx "Game"), define_sym [8513] None);
  ((tx "gggtr"), define_sym (tx ">>>") None);
  ((tx "gimel"), define_sym (tx "gimel") None);
  ((tx "Harr"), define_sym (tx "<=>") None);
  ((tx "hArr"), define_sym (tx "<=>") None);
  ((tx "harr"), define_sym (tx "<->") None);
  ((tx "hearts"), define_sym [9825] None);
  ((tx "heartsuit"), define_sym [9825] None);
  ((tx "image"), define_sym (tx "Im") None);
  ((tx "imageof"), define_sym [8887] None);
  ((tx "infin"), define_sym (tx "infinity") None);
  ((tx "intercal"), define_sym [8890] None);
  ((tx "intop"), define_sym (tx "integral") None);
  ((tx "lBrace"), define_sym [10627] None);
  ((tx "ldotp"), define_sym (tx ".") None);
  ((tx "leadsto"), define_sym (tx "arrow.r.squiggly") None);
  ((tx "lessapprox"), define_sym [10885] None);
  ((tx "lesseqqgtr"), define_sym [10891] None);
  ((tx "llcorner"), define_sym [8990] None);
  ((tx "llless"), define_sym (tx "<<<") None);
  ((tx "lnapprox"), define_sym [10889] None);
  ((tx "lneq"), define_sym [10887] None);
  ((tx "lrcorner"), define_sym [8991] None);
  ((tx "lq"), define_sym (tx "quote.l.single") None);
  ((tx "Lsh"), define_sym [8624] None);
  ((tx "maltese"), define_sym (tx "maltese") None);
  ((tx "mathellipsis"), define_sym (tx "...") None);
  ((tx "mathsterling"), define_sym (tx "pound") None);
  ((tx "mho"), define_sym (tx "Omega.inv") None);
  ((tx "minuscolon"), define_sym (tx "dash.colon") None);
  ((tx "minuscoloncolon"), define_sym [8722; 58; 58] None);
  ((tx "minuso"), define_sym [10677] None);
  ((tx "newline"), define_sym (tx "\") None);
  ((tx "nVDash"), define_sym [8879] None);
  ((tx "nVdash"), define_sym [8878] None);
  ((tx "OE"), define_sym [338] None);
  ((tx "oe"), define_sym [339] None);
  ((tx "origof"), define_sym [8886] None)
].
Definition standard_part_19 : list (text * definition N) := [
  ((tx "oslash"), define_sym [8856] None);
  ((tx "owns"), define_sym (tx "in.rev") None);
  ((tx "pitchfork"), define_sym [8916] None);
  ((tx "ratio"), define_sym (tx ":") None);
  ((tx "rBrace"), define_sym [10628] None);
  ((tx "real"), define_sym (tx "Re") None);
  ((tx "Reals"), define_sym (tx "RR") None);
  ((tx "reals"), define_sym (tx "RR") None);
  ((tx "restriction"), define_sym (tx "harpoon.tr") None);
  ((tx "risingdotseq"), define_sym [8787] None);
  ((tx "rmoustache"), define_sym [9137] None);
  ((tx "rq"), define_sym (tx "'") None);
  ((tx "Rsh"), define_sym [8625] None);
  ((tx "simcolon"), define_sym (tx "tilde.op:") None);
  ((tx "simcoloncolon"), define_sym (tx "tilde.op::") None);
  ((tx "spades"), define_sym (tx "suit.spade") None);
  ((tx "sqsubset"), define_sym (tx "subset.sq") None);
  ((tx "sqsupset"), define_sym (tx "supset.sq") None);
  ((tx "sub"), define_sym (tx "subset") None);
  ((tx "sube"), define_sym (tx "subset.eq") None);
  ((tx "subseteqq"), define_sym [10949] None);
  ((tx "succneqq"), define_sym (tx "succ.nequiv") None);
  ((tx "supe"), define_sym (tx "supset.eq") None);
  ((tx "supseteqq"), define_sym [10950] None);
  ((tx "supsetneqq"), define_sym [10956] None);
  ((tx "textasciitilde"), define_sym (tx "~") None);
  ((tx "textasciicircum"), define_sym (tx "\^") None);
  ((tx "textbackslash"), define_sym (tx "\\") None);
  ((tx "textbar"), define_sym (tx "\|") None);
  ((tx "textbardbl"), define_sym [8214] None);
  ((tx "textbraceleft"), define_sym (tx "{") None);
  ((tx "textbraceright"), define_sym (tx "}") None);
  ((tx "textdagger"), define_sym (tx "dagger") None);
  ((tx "textdaggerdbl"), define_sym (tx "dagger.double") None);
  ((tx "textdegree"), define_sym (tx "degree") None);
  ((tx "textdollarsign"), define_sym (tx "\$") None);
  ((tx "textellipsis"), define_sym (tx "...") None);
  ((tx "textemdash"), define_sym (tx "---") None);
  ((tx "textendash"), define_sym (tx "--") None);
  ((tx "textgreater"), define_sym (tx "gt") None)
].
Definition standard_part_20 : list (text * definition N) := [
  ((tx "textless"), define_sym (tx "lt") None);
  ((tx "textquotedblleft"), define_sym (tx "quote.l.double") None);
  ((tx "textquotedblright"), define_sym (tx "quote.r.double") None);
  ((tx "textquoteleft"), define_sym (tx "quote.l.single") None);
  ((tx "textquoteright"), define_sym (tx "quote.r.single") None);
  ((tx "textregistered"), define_sym [174] None);
  ((tx "textperthousand"), define_sym (tx "permille") None);
  ((tx "textsterling"), define_sym (tx "pound") None);
  ((tx "textunderscore"), define_sym (tx "\_") None);
  ((tx "thetasym"), define_sym (tx "theta.alt") None);
  ((tx "Uarr"), define_sym (tx "arrow.t.double") None);
  ((tx "uArr"), define_sym (tx "arrow.t.double") None);
  ((tx "uarr"), define_sym (tx "arrow.t") None);
  ((tx "ulcorner"), define_sym [8988] None);
  ((tx "unlhd"), define_sym (tx "lt.tri.eq") None);
  ((tx "unrhd"), define_sym (tx "gt.tri.eq") None);
  ((tx "urcorner"), define_sym [8989] None);
  ((tx "varpropto"), define_sym (tx "prop") None);
  ((tx "varsubsetneq"), define_sym (tx "subset.neq") None);
  ((tx "varsubsetneqq"), define_sym [10955] None);
  ((tx "varsupsetneq"), define_sym (tx "supset.neq") None);
  ((tx "varsupsetneqq"), define_sym [10956] None);
  ((tx "vcentcolon"), define_sym (tx ":") None);
  ((tx "veebar"), define_sym [8891] None);
  ((tx "yen"), define_sym (tx "yen") None);
  ((tx "arcctg"), of_sym 962);
  ((tx "begingroup"), define_sym [] None);
  ((tx "cosec"), of_sym 964);
  ((tx "cotg"), of_sym 965);
  ((tx "injlim"), of_sym 966);
  ((tx "mathclap"), define_cmd 1 None (Some 967));
  ((tx "mathring"), define_cmd 1 None (Some 968));
  ((tx "nobreak"), define_sym [] None);
  ((tx "noexpand"), define_sym [] None);
  ((tx "overgroup"), define_cmd 1 None (Some 971));
  ((tx "undergroup"), define_cmd 1 None (Some 972));
  ((tx "overleftharpoon"), define_cmd 1 None (Some 973));
  ((tx "overleftrightarrow"), define_cmd 1 None (Some 974));
  ((tx "overlinesegment"), define_cmd 1 None (Some 975));
  ((tx "overrightharpoon"), define_cmd 1 None (Some 976))
].
Definition standard_part_21 : list (text * definition N) := [
  ((tx "underbar"), define_cmd 1 None (Some 977));
  ((tx "plim"), of_sym 978);
  ((tx "projlim"), of_sym 979);
  ((tx "raisebox"), define_cmd 2 None (Some 980));
  ((tx "sh"), of_sym 981);
  ((tx "smallint"), of_sym 982);
  ((tx "thickapprox"), of_sym 983);
  ((tx "thicksim"), of_sym 984);
  ((tx "varDelta"), of_sym 985);
  ((tx "varGamma"), of_sym 986);
  ((tx "varLambda"), of_sym 987);
  ((tx "varOmega"), of_sym 988);
  ((tx "varPhi"), of_sym 989);
  ((tx "varPi"), of_sym 990);
  ((tx "varPsi"), of_sym 991);
  ((tx "varSigma"), of_sym 992);
  ((tx "varTheta"), of_sym 993);
  ((tx "varUpsilon"), of_sym 994);
  ((tx "varXi"), of_sym 995);
  ((tx "xleftarrow"), define_cmd 1 None (Some 996));
  ((tx "xrightarrow"), define_cmd 1 None (Some 997));
  ((tx "xLeftarrow"), define_cmd 1 None (Some 998));
  ((tx "xRightarrow"), define_cmd 1 None (Some 999));
  ((tx "xleftrightarrow"), define_cmd 1 None (Some 1000));
  ((tx "xLeftrightarrow"), define_cmd 1 None (Some 1001));
  ((tx "xhookleftarrow"), define_cmd 1 None (Some 1002));
  ((tx "xhookrightarrow"), define_cmd 1 None (Some 1003));
  ((tx "xtwoheadleftarrow"), define_cmd 1 None (Some 1004));
  ((tx "xtwoheadrightarrow"), define_cmd 1 None (Some 1005));
  ((tx "xleftharpoonup"), define_cmd 1 None (Some 1006));
  ((tx "xrightharpoonup"), define_cmd 1 None (Some 1007));
  ((tx "xleftharpoondown"), define_cmd 1 None (Some 1008));
  ((tx "xrightharpoondown"), define_cmd 1 None (Some 1009));
  ((tx "xleftrightharpoons"), define_cmd 1 None (Some 1010));
  ((tx "xrightleftharpoons"), define_cmd 1 None (Some 1011));
  ((tx "xtofrom"), define_cmd 1 None (Some 1012));
  ((tx "xmapsto"), define_cmd 1 None (Some 1013));
  ((tx "xlongequal"), define_cmd 1 None (Some 1014));
  ((tx "pmod"), define_cmd 1 None (Some 1015));
  ((tx "pod"), define_cmd 1 None (Some 1016))
].
Definition standard_part_22 : list (text * definition N) := [
  ((tx "set"), define_cmd 1 None (Some 1017));
  ((tx "Set"), define_cmd 1 None (Some 1018));
  ((tx "bra"), define_cmd 1 None (Some 1019));
  ((tx "Bra"), define_cmd 1 None (Some 1020));
  ((tx "ket"), define_cmd 1 None (Some 1021));
  ((tx "Ket"), define_cmd 1 None (Some 1022));
  ((tx "braket"), define_cmd 1 None (Some 1023));
  ((tx "Braket"), define_cmd 1 None (Some 1024));
  ((tx "fbox"), define_cmd 1 None (Some 1025));
  ((tx "hbox"), define_cmd 1 None (Some 1026));
  ((tx "matrix"), define_env None (tx "is-matrix") None (Some 1028));
  ((tx "pmatrix"), define_env None (tx "is-matrix") None (Some 1029));
  ((tx "bmatrix"), define_env None (tx "is-matrix") None (Some 1030));
  ((tx "Bmatrix"), define_env None (tx "is-matrix") None (Some 1031));
  ((tx "vmatrix"), define_env None (tx "is-matrix") None (Some 1032));
  ((tx "Vmatrix"), define_env None (tx "is-matrix") None (Some 1033));
  ((tx "smallmatrix"), define_env None (tx "is-matrix") None (Some 1034));
  ((tx "array"), define_env (Some 1) (tx "is-matrix") (Some (tx "mitexarray")) (Some 1035));
  ((tx "subarray"), define_env (Some 1) (tx "is-matrix") (Some (tx "mitexarray")) None);
  ((tx "aligned"), define_env None (tx "is-math") (Some (tx "aligned")) (Some 1066));
  ((tx "alignedat"), define_env (Some 1) (tx "is-math") (Some (tx "alignedat")) (Some 1067));
  ((tx "align"), define_env None (tx "is-math") (Some (tx "aligned")) None);
  ((tx "align*"), define_env None (tx "is-math") (Some (tx "aligned")) None);
  ((tx "equation"), define_env None (tx "is-math") (Some (tx "aligned")) None);
  ((tx "equation*"), define_env None (tx "is-math") (Some (tx "aligned")) None);
  ((tx "split"), define_env None (tx "is-math") (Some (tx "aligned")) None);
  ((tx "gather"), define_env None (tx "is-math") (Some (tx "aligned")) None);
  ((tx "gather*"), define_env None (tx "is-math") (Some (tx "aligned")) None);
  ((tx "gathered"), define_env None (tx "is-math") (Some (tx "aligned")) None);
  ((tx "cases"), define_env None (tx "is-cases") (Some (tx "cases")) None);
  ((tx "rcases"), define_env None (tx "is-cases") (Some (tx "rcases")) (Some 1077));
  ((tx "notag"), define_sym [] None);
  ((tx "relax"), define_sym [] None);
  ((tx "cr"), define_sym [] None);
  ((tx "expandafter"), define_sym [] None);
  ((tx "hskip"), define_sym [] None);
  ((tx "mskip"), define_sym [] None);
  ((tx "kern"), define_sym [] None);
  ((tx "mkern"), define_sym [] None);
  ((tx "mathstrut"), define_sym [] None)
].
Definition standard_part_23 : list (text * definition N) := [
  ((tx "nonumber"), define_sym [] None);
  ((tx "KaTeX"), of_sym 1089);
  ((tx "LaTeX"), of_sym 1090);
  ((tx "TeX"), of_sym 1091);
  ((tx "middle"), define_cmd 1 None (Some 1092));
  ((tx "operatorname"), define_cmd 1 None (Some 1093));
  ((tx "operatornamewithlimits"), define_cmd 1 (Some (tx "operatornamewithlimits")) (Some 1094));
  ((tx "operatorname*"), define_cmd 1 (Some (tx "operatornamewithlimits")) (Some 1095));
  ((tx "vspace"), define_cmd 1 None (Some 1096));
  ((tx "hspace"), define_cmd 1 None (Some 1097));
  ((tx "text"), define_cmd 1 (Some (tx "#textmath")) (Some 1098));
  ((tx "textmd"), define_cmd 1 (Some (tx "#textmd")) (Some 1099));
  ((tx "textnormal"), define_cmd 1 (Some (tx "#textnormal")) (Some 1100));
  ((tx "textbf"), define_cmd 1 (Some (tx "#textbf")) (Some 1101));
  ((tx "textit"), define_cmd 1 (Some (tx "#textit")) (Some 1102));
  ((tx "textrm"), define_cmd 1 (Some (tx "#textrm")) (Some 1103));
  ((tx "textup"), define_cmd 1 (Some (tx "#textup")) (Some 1104));
  ((tx "textsf"), define_cmd 1 (Some (tx "#textsf")) (Some 1105));
  ((tx "texttt"), define_cmd 1 (Some (tx "#texttt")) (Some 1106));
  ((tx "over"), define_infix_cmd (tx "frac") None);
  ((tx "atop"), define_infix_cmd (tx "atop") (Some 1108));
  ((tx "choose"), define_infix_cmd (tx "binom") (Some 1109));
  ((tx "brace"), define_infix_cmd (tx "brace") (Some 1110));
  ((tx "brack"), define_infix_cmd (tx "brack") (Some 1111));
  ((tx "sqrt"), define_glob_cmd (tx "{,b}t") (tx "mitexsqrt") (Some 1112));
  ((tx "def"), define_sym [] None);
  ((tx "newcommand"), define_sym [] None);
  ((tx "newcommand*"), define_sym [] None);
  ((tx "renewcommand"), define_sym [] None);
  ((tx "renewcommand*"), define_sym [] None);
  ((tx "DeclareRobustCommand"), define_sym [] None);
  ((tx "DeclareRobustCommand*"), define_sym [] None);
  ((tx "DeclareTextCommand"), define_sym [] None);
  ((tx "DeclareTextCommandDefault"), define_sym [] None);
  ((tx "ProvideTextCommand"), define_sym [] None);
  ((tx "ProvideTextCommandDefault"), define_sym [] None);
  ((tx "providecommand"), define_sym [] None);
  ((tx "providecommand*"), define_sym [] None);
  ((tx "newenvironment"), define_sym [] None);
  ((tx "newenvironment*"), define_sym [] None)
].
Definition standard_part_24 : list (text * definition N) := [
  ((tx "renewenvironment"), define_sym [] None);
  ((tx "renewenvironment*"), define_sym [] None);
  ((tx "AtEndOfClass"), define_sym [] None);
  ((tx "AtEndOfPackage"), define_sym [] None);
  ((tx "AtBeginDocument"), define_sym [] None);
  ((tx "AtEndDocument"), define_sym [] None);
  ((tx "@ifstar"), define_sym [] None);
  ((tx "if"), define_sym [] None);
  ((tx "ifdim"), define_sym [] None);
  ((tx "iffalse"), define_sym [] None);
  ((tx "ifnum"), define_sym [] None);
  ((tx "ifodd"), define_sym [] None);
  ((tx "iftrue"), define_sym [] None);
  ((tx "ifx"), define_sym [] None);
  ((tx "DeclareOption"), define_sym [] None);
  ((tx "DeclareOption*"), define_sym [] None);
  ((tx "CurrentOption"), define_sym [] None);
  ((tx "ProcessOptions"), define_sym [] None);
  ((tx "ExecuteOptions"), define_sym [] None);
  ((tx "RequirePackage"), define_sym [] None);
  ((tx "RequirePackageWithOptions"), define_sym [] None);
  ((tx "documentclass"), define_sym [] None);
  ((tx "PassOptionsToClass"), define_sym [] None);
  ((tx "PassOptionsToPackage"), define_sym [] None);
  ((tx "IfFileExists"), define_sym [] None);
  ((tx "InputIfFileExists"), define_sym [] None);
  ((tx "ProvidesFile"), define_sym [] None);
  ((tx "ignorespaces"), define_sym [] None);
  ((tx "ignorespacesafterend"), define_sym [] None);
  ((tx "ifvoid"), define_sym [] None);
  ((tx "ifinner"), define_sym [] None);
  ((tx "ifhbox"), define_sym [] None);
  ((tx "ifvbox"), define_sym [] None);
  ((tx "ifhmode"), define_sym [] None);
  ((tx "ifmmode"), define_sym [] None);
  ((tx "ifvmode"), define_sym [] None);
  ((tx "CheckCommand"), define_sym [] None);
  ((tx "CheckCommand*"), define_sym [] None);
  ((tx "newcounter"), define_sym [] None);
  ((tx "newlength"), define_sym [] None)
].
Definition standard_part_25 : list (text * definition N) := [
  ((tx "newsavebox"), define_sym [] None);
  ((tx "newtheorem"), define_sym [] None);
  ((tx "newfont"), define_sym [] None);
  ((tx "ProvidesClass"), define_sym [] None);
  ((tx "LoadClass"), define_sym [] None);
  ((tx "LoadClassWithOptions"), define_sym [] None)
].
Definition standard_definitions : list (text * definition N) := List.concat
  [standard_part_0; standard_part_1; standard_part_2; standard_part_3; standard_part_4; standard_part_5; standard_part_6; standard_part_7; standard_part_8; standard_part_9; standard_part_10; standard_part_11; standard_part_12; standard_part_13; standard_part_14; standard_part_15; standard_part_16; standard_part_17; standard_part_18; standard_part_19; standard_part_20; standard_part_21; standard_part_22; standard_part_23; standard_part_24; standard_part_25].
