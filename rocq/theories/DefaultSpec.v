(** GENERATED by tools/gen_default_spec.py from
    packages/mitex/specs/latex/standard.typ:95-1186 (and prelude.typ for the meaning
    of the define-* helpers): the items of the standard package. *)
From Verif Require Export Spec.
Local Open Scope N_scope.
Definition standard_package : list (text * json_item) := [
  ((tx "section"), JCmd {| cs_args := SRight (PFixed 1); cs_alias := Some (tx "#heading(level: 1)") |});
  ((tx "subsection"), JCmd {| cs_args := SRight (PFixed 1); cs_alias := Some (tx "#heading(level: 2)") |});
  ((tx "subsubsection"), JCmd {| cs_args := SRight (PFixed 1); cs_alias := Some (tx "#heading(level: 3)") |});
  ((tx "footnote"), JCmd {| cs_args := SRight (PFixed 1); cs_alias := Some (tx "#footnote") |});
  ((tx "cite"), JCmd {| cs_args := SRight (PFixed 1); cs_alias := Some (tx "#mitexcite") |});
  ((tx "emph"), JCmd {| cs_args := SRight (PFixed 1); cs_alias := Some (tx "#emph") |});
  ((tx "label"), JCmd {| cs_args := SRight (PFixed 1); cs_alias := Some (tx "mitexlabel") |});
  ((tx "tag"), JCmd {| cs_args := SRight (PFixed 1); cs_alias := Some (tx "mitexlabel") |});
  ((tx "ref"), JCmd {| cs_args := SRight (PFixed 1); cs_alias := Some (tx "#mitexref") |});
  ((tx "eqref"), JCmd {| cs_args := SRight (PFixed 1); cs_alias := Some (tx "#mitexref") |});
  ((tx "item"), JSymAlias []);
  ((tx "itemize"), JEnv {| en_args := PNone; en_feature := FItemize; en_alias := None |});
  ((tx "enumerate"), JEnv {| en_args := PNone; en_feature := FEnumerate; en_alias := None |});
  ((tx "quote"), JEnv {| en_args := PNone; en_feature := FNone; en_alias := Some (tx "quote(block: true)") |});
  ((tx "abstract"), JEnv {| en_args := PNone; en_feature := FNone; en_alias := Some (tx "quote(block: true)") |});
  ((tx "figure"), JEnvGlob (tx "{,b}") (tx "figure") FFigure);
  ((tx "table"), JEnvGlob (tx "{,b}") (tx "figure") FFigure);
  ((tx "tabular"), JEnv {| en_args := (PFixed 1); en_feature := FTable; en_alias := Some (tx "table") |});
  ((tx "centering"), JSymAlias []);
  ((tx "textwidth"), JSymbol);
  ((tx "caption"), JCmd {| cs_args := SRight (PFixed 1); cs_alias := Some (tx "mitexcaption") |});
  ((tx "includegraphics"), JCmdGlob (tx "{,b}t") (tx "#miteximage"));
  ((tx "toprule"), JCmdGlob (tx "{,b}") (tx "toprule"));
  ((tx "midrule"), JCmdGlob (tx "{,b}") (tx "midrule"));
  ((tx "bottomrule"), JCmdGlob (tx "{,b}") (tx "bottomrule"));
  ((tx "hline"), JSymAlias []);
  ((tx "vline"), JSymAlias []);
  ((tx "!"), JSymAlias (tx "negthinspace"));
  ((tx "negthinspace"), JSymbol);
  ((tx "negthinmedspace"), JSymbol);
  ((tx "negmedspace"), JSymbol);
  ((tx "negthickspace"), JSymbol);
  ((tx ","), JSymAlias (tx "thin"));
  ((tx "thinspace"), JSymAlias (tx "thin"));
  ((tx ">"), JSymAlias (tx "med"));
  ((tx ":"), JSymAlias (tx "med"));
  ((tx "medspace"), JSymAlias (tx "med"));
  ((tx ";"), JSymAlias (tx "thick"));
  ([], JSymAlias (tx "thick"));
  ((tx "thickspace"), JSymAlias (tx "thick"));
  ((tx "enspace"), JSymbol);
  ((tx "nobreakspace"), JSymAlias (tx "space.nobreak"));
  ((tx "space"), JSymbol);
  ((tx "quad"), JSymbol);
  ((tx "qquad"), JSymAlias (tx "wide"));
  ((tx "phantom"), JCmd {| cs_args := SRight (PFixed 1); cs_alias := None |});
  ((tx "hphantom"), JCmd {| cs_args := SRight (PFixed 1); cs_alias := None |});
  ((tx "vphantom"), JCmd {| cs_args := SRight (PFixed 1); cs_alias := None |});
  ((tx "smash"), JCmd {| cs_args := SRight (PFixed 1); cs_alias := None |});
  ((tx "_"), JSymAlias (tx "\_"));
  ((tx "^"), JSymAlias (tx "hat"));
  ((tx "*"), JSymAlias (tx ""));
  ((tx "|"), JSymAlias (tx "||"));
  ((tx "&"), JSymAlias (tx "amp"));
  ((tx "#"), JSymAlias (tx "hash"));
  ((tx "%"), JSymAlias (tx "%"));
  ((tx "-"), JSymAlias (tx "-"));
  ((tx "+"), JSymAlias (tx "+"));
  ((tx "$"), JSymAlias (tx "dollar"));
  ((tx "{"), JSymAlias (tx "\{"));
  ((tx "}"), JSymAlias (tx "\}"));
  ((tx "vert"), JSymAlias (tx "|"));
  ((tx "lvert"), JSymbol);
  ((tx "rvert"), JSymbol);
  ((tx "Vert"), JSymAlias (tx "||"));
  ((tx "lVert"), JSymbol);
  ((tx "rVert"), JSymbol);
  ((tx "lparen"), JSymAlias (tx "paren.l"));
  ((tx "rparen"), JSymAlias (tx "paren.r"));
  ((tx "lceil"), JSymAlias [8968]);
  ((tx "rceil"), JSymAlias [8969]);
  ((tx "lfloor"), JSymAlias [8970]);
  ((tx "rfloor"), JSymAlias [8971]);
  ((tx "displaystyle"), JCmdGreedy (tx "mitexdisplay"));
  ((tx "textstyle"), JCmdGreedy (tx "mitexinline"));
  ((tx "scriptstyle"), JCmdGreedy (tx "mitexscript"));
  ((tx "scriptscriptstyle"), JCmdGreedy (tx "mitexsscript"));
  ((tx "bf"), JCmdGreedy (tx "mitexbold"));
  ((tx "rm"), JCmdGreedy (tx "mitexupright"));
  ((tx "it"), JCmdGreedy (tx "mitexitalic"));
  ((tx "sf"), JCmdGreedy (tx "mitexsans"));
  ((tx "frak"), JCmdGreedy (tx "mitexfrak"));
  ((tx "tt"), JCmdGreedy (tx "mitexmono"));
  ((tx "cal"), JCmdGreedy (tx "mitexcal"));
  ((tx "bold"), JCmd {| cs_args := SRight (PFixed 1); cs_alias := Some (tx "bold") |});
  ((tx "mathbf"), JCmd {| cs_args := SRight (PFixed 1); cs_alias := Some (tx "mitexmathbf") |});
  ((tx "bm"), JCmd {| cs_args := SRight (PFixed 1); cs_alias := Some (tx "bold") |});
  ((tx "boldsymbol"), JCmd {| cs_args := SRight (PFixed 1); cs_alias := Some (tx "bold") |});
  ((tx "pmb"), JCmd {| cs_args := SRight (PFixed 1); cs_alias := Some (tx "bold") |});
  ((tx "mathrm"), JCmd {| cs_args := SRight (PFixed 1); cs_alias := Some (tx "upright") |});
  ((tx "mathit"), JCmd {| cs_args := SRight (PFixed 1); cs_alias := Some (tx "italic") |});
  ((tx "mathnormal"), JCmd {| cs_args := SRight (PFixed 1); cs_alias := Some (tx "italic") |});
  ((tx "mathsf"), JCmd {| cs_args := SRight (PFixed 1); cs_alias := Some (tx "sans") |});
  ((tx "mathfrak"), JCmd {| cs_args := SRight (PFixed 1); cs_alias := Some (tx "frak") |});
  ((tx "mathtt"), JCmd {| cs_args := SRight (PFixed 1); cs_alias := Some (tx "mono") |});
  ((tx "Bbb"), JCmd {| cs_args := SRight (PFixed 1); cs_alias := Some (tx "bb") |});
  ((tx "mathbb"), JCmd {| cs_args := SRight (PFixed 1); cs_alias := Some (tx "bb") |});
  ((tx "mathcal"), JCmd {| cs_args := SRight (PFixed 1); cs_alias := Some (tx "cal") |});
  ((tx "mathscr"), JCmd {| cs_args := SRight (PFixed 1); cs_alias := None |});
  ((tx "mathbin"), JCmd {| cs_args := SRight (PFixed 1); cs_alias := None |});
  ((tx "mathclose"), JCmd {| cs_args := SRight (PFixed 1); cs_alias := None |});
  ((tx "mathinner"), JCmd {| cs_args := SRight (PFixed 1); cs_alias := None |});
  ((tx "mathop"), JCmd {| cs_args := SRight (PFixed 1); cs_alias := None |});
  ((tx "mathopen"), JCmd {| cs_args := SRight (PFixed 1); cs_alias := None |});
  ((tx "mathord"), JCmd {| cs_args := SRight (PFixed 1); cs_alias := None |});
  ((tx "mathpunct"), JCmd {| cs_args := SRight (PFixed 1); cs_alias := None |});
  ((tx "mathrel"), JCmd {| cs_args := SRight (PFixed 1); cs_alias := None |});
  ((tx "big"), JCmd {| cs_args := SRight (PFixed 1); cs_alias := None |});
  ((tx "Big"), JCmd {| cs_args := SRight (PFixed 1); cs_alias := None |});
  ((tx "bigg"), JCmd {| cs_args := SRight (PFixed 1); cs_alias := None |});
  ((tx "Bigg"), JCmd {| cs_args := SRight (PFixed 1); cs_alias := None |});
  ((tx "bigl"), JCmd {| cs_args := SRight (PFixed 1); cs_alias := Some (tx "big") |});
  ((tx "Bigl"), JCmd {| cs_args := SRight (PFixed 1); cs_alias := Some (tx "Big") |});
  ((tx "biggl"), JCmd {| cs_args := SRight (PFixed 1); cs_alias := Some (tx "bigg") |});
  ((tx "Biggl"), JCmd {| cs_args := SRight (PFixed 1); cs_alias := Some (tx "Bigg") |});
  ((tx "bigm"), JCmd {| cs_args := SRight (PFixed 1); cs_alias := Some (tx "big") |});
  ((tx "Bigm"), JCmd {| cs_args := SRight (PFixed 1); cs_alias := Some (tx "Big") |});
  ((tx "biggm"), JCmd {| cs_args := SRight (PFixed 1); cs_alias := Some (tx "bigg") |});
  ((tx "Biggm"), JCmd {| cs_args := SRight (PFixed 1); cs_alias := Some (tx "Bigg") |});
  ((tx "bigr"), JCmd {| cs_args := SRight (PFixed 1); cs_alias := Some (tx "big") |});
  ((tx "Bigr"), JCmd {| cs_args := SRight (PFixed 1); cs_alias := Some (tx "Big") |});
  ((tx "biggr"), JCmd {| cs_args := SRight (PFixed 1); cs_alias := Some (tx "bigg") |});
  ((tx "Biggr"), JCmd {| cs_args := SRight (PFixed 1); cs_alias := Some (tx "Bigg") |});
  ((tx "Huge"), JSymAlias []);
  ((tx "normalsize"), JSymAlias []);
  ((tx "huge"), JSymAlias []);
  ((tx "small"), JSymAlias []);
  ((tx "footnotesize"), JSymAlias []);
  ((tx "Large"), JSymAlias []);
  ((tx "LARGE"), JSymAlias []);
  ((tx "scriptsize"), JSymAlias []);
  ((tx "large"), JSymAlias []);
  ((tx "tiny"), JSymAlias []);
  ((tx "color"), JCmdGreedy (tx "#mitexcolor"));
  ((tx "textcolor"), JCmdGlob (tx "{,b}tt") (tx "#colortext"));
  ((tx "colorbox"), JCmdGlob (tx "{,b}tt") (tx "#mitexcolorbox"));
  ((tx "limits"), JCmd {| cs_args := SLeft1; cs_alias := Some (tx "limits") |});
  ((tx "nolimits"), JCmd {| cs_args := SLeft1; cs_alias := Some (tx "scripts") |});
  ((tx "frac"), JCmd {| cs_args := SRight (PFixed 2); cs_alias := None |});
  ((tx "cfrac"), JCmd {| cs_args := SRight (PFixed 2); cs_alias := None |});
  ((tx "dfrac"), JCmd {| cs_args := SRight (PFixed 2); cs_alias := None |});
  ((tx "tfrac"), JCmd {| cs_args := SRight (PFixed 2); cs_alias := None |});
  ((tx "binom"), JCmd {| cs_args := SRight (PFixed 2); cs_alias := None |});
  ((tx "dbinom"), JCmd {| cs_args := SRight (PFixed 2); cs_alias := None |});
  ((tx "tbinom"), JCmd {| cs_args := SRight (PFixed 2); cs_alias := None |});
  ((tx "stackrel"), JCmd {| cs_args := SRight (PFixed 2); cs_alias := None |});
  ((tx "substack"), JCmd {| cs_args := SRight (PFixed 1); cs_alias := None |});
  ((tx "overset"), JCmd {| cs_args := SRight (PFixed 2); cs_alias := None |});
  ((tx "underset"), JCmd {| cs_args := SRight (PFixed 2); cs_alias := None |});
  ((tx "not"), JCmd {| cs_args := SRight (PFixed 1); cs_alias := Some (tx "mitexnot") |});
  ((tx "cancel"), JCmd {| cs_args := SRight (PFixed 1); cs_alias := None |});
  ((tx "xcancel"), JCmd {| cs_args := SRight (PFixed 1); cs_alias := None |});
  ((tx "bcancel"), JCmd {| cs_args := SRight (PFixed 1); cs_alias := None |});
  ((tx "sout"), JCmd {| cs_args := SRight (PFixed 1); cs_alias := None |});
  ((tx "grave"), JCmd {| cs_args := SRight (PFixed 1); cs_alias := Some (tx "grave") |});
  ((tx "acute"), JCmd {| cs_args := SRight (PFixed 1); cs_alias := Some (tx "acute") |});
  ((tx "hat"), JCmd {| cs_args := SRight (PFixed 1); cs_alias := Some (tx "hat") |});
  ((tx "widehat"), JCmd {| cs_args := SRight (PFixed 1); cs_alias := Some (tx "hat") |});
  ((tx "tilde"), JCmd {| cs_args := SRight (PFixed 1); cs_alias := Some (tx "tilde") |});
  ((tx "widetilde"), JCmd {| cs_args := SRight (PFixed 1); cs_alias := Some (tx "tilde") |});
  ((tx "bar"), JCmd {| cs_args := SRight (PFixed 1); cs_alias := Some (tx "macron") |});
  ((tx "breve"), JCmd {| cs_args := SRight (PFixed 1); cs_alias := Some (tx "breve") |});
  ((tx "dot"), JCmd {| cs_args := SRight (PFixed 1); cs_alias := Some (tx "dot") |});
  ((tx "ddot"), JCmd {| cs_args := SRight (PFixed 1); cs_alias := Some (tx "dot.double") |});
  ((tx "dddot"), JCmd {| cs_args := SRight (PFixed 1); cs_alias := Some (tx "dot.triple") |});
  ((tx "ddddot"), JCmd {| cs_args := SRight (PFixed 1); cs_alias := Some (tx "dot.quad") |});
  ((tx "H"), JCmd {| cs_args := SRight (PFixed 1); cs_alias := Some (tx "acute.double") |});
  ((tx "check"), JCmd {| cs_args := SRight (PFixed 1); cs_alias := Some (tx "caron") |});
  ((tx "widecheck"), JCmd {| cs_args := SRight (PFixed 1); cs_alias := Some (tx "caron") |});
  ((tx "u"), JCmd {| cs_args := SRight (PFixed 1); cs_alias := Some (tx "breve") |});
  ((tx "v"), JCmd {| cs_args := SRight (PFixed 1); cs_alias := Some (tx "caron") |});
  ((tx "r"), JCmd {| cs_args := SRight (PFixed 1); cs_alias := Some (tx "circle") |});
  ((tx "vec"), JCmd {| cs_args := SRight (PFixed 1); cs_alias := Some (tx "arrow") |});
  ((tx "overrightarrow"), JCmd {| cs_args := SRight (PFixed 1); cs_alias := Some (tx "arrow") |});
  ((tx "overleftarrow"), JCmd {| cs_args := SRight (PFixed 1); cs_alias := Some (tx "arrow.l") |});
  ((tx "overline"), JCommand1);
  ((tx "underline"), JCommand1);
  ((tx "overbrace"), JCmd {| cs_args := SRight (PFixed 1); cs_alias := Some (tx "mitexoverbrace") |});
  ((tx "underbrace"), JCmd {| cs_args := SRight (PFixed 1); cs_alias := Some (tx "mitexunderbrace") |});
  ((tx "overbracket"), JCmd {| cs_args := SRight (PFixed 1); cs_alias := Some (tx "mitexoverbracket") |});
  ((tx "underbracket"), JCmd {| cs_args := SRight (PFixed 1); cs_alias := Some (tx "mitexunderbracket") |});
  ((tx "boxed"), JCmd {| cs_args := SRight (PFixed 1); cs_alias := None |});
  ((tx "alpha"), JSymbol);
  ((tx "beta"), JSymbol);
  ((tx "gamma"), JSymbol);
  ((tx "delta"), JSymbol);
  ((tx "epsilon"), JSymAlias (tx "epsilon.alt"));
  ((tx "zeta"), JSymbol);
  ((tx "eta"), JSymbol);
  ((tx "theta"), JSymbol);
  ((tx "iota"), JSymbol);
  ((tx "kappa"), JSymbol);
  ((tx "lambda"), JSymbol);
  ((tx "mu"), JSymbol);
  ((tx "nu"), JSymbol);
  ((tx "xi"), JSymbol);
  ((tx "omicron"), JSymbol);
  ((tx "pi"), JSymbol);
  ((tx "rho"), JSymbol);
  ((tx "sigma"), JSymbol);
  ((tx "tau"), JSymbol);
  ((tx "upsilon"), JSymbol);
  ((tx "phi"), JSymAlias (tx "phi.alt"));
  ((tx "chi"), JSymbol);
  ((tx "psi"), JSymbol);
  ((tx "omega"), JSymbol);
  ((tx "Alpha"), JSymbol);
  ((tx "Beta"), JSymbol);
  ((tx "Gamma"), JSymbol);
  ((tx "Delta"), JSymbol);
  ((tx "Epsilon"), JSymbol);
  ((tx "Zeta"), JSymbol);
  ((tx "Eta"), JSymbol);
  ((tx "Theta"), JSymbol);
  ((tx "Iota"), JSymbol);
  ((tx "Kappa"), JSymbol);
  ((tx "Lambda"), JSymbol);
  ((tx "Mu"), JSymbol);
  ((tx "Nu"), JSymbol);
  ((tx "Xi"), JSymbol);
  ((tx "Omicron"), JSymbol);
  ((tx "Pi"), JSymbol);
  ((tx "Rho"), JSymbol);
  ((tx "Sigma"), JSymbol);
  ((tx "Tau"), JSymbol);
  ((tx "Upsilon"), JSymbol);
  ((tx "Phi"), JSymbol);
  ((tx "Chi"), JSymbol);
  ((tx "Psi"), JSymbol);
  ((tx "Omega"), JSymbol);
  ((tx "varbeta"), JSymAlias (tx "beta.alt"));
  ((tx "varepsilon"), JSymAlias (tx "epsilon"));
  ((tx "varkappa"), JSymAlias (tx "kappa.alt"));
  ((tx "varphi"), JSymAlias (tx "phi"));
  ((tx "varpi"), JSymAlias (tx "pi.alt"));
  ((tx "varrho"), JSymAlias (tx "rho.alt"));
  ((tx "varsigma"), JSymAlias (tx "sigma.alt"));
  ((tx "vartheta"), JSymAlias (tx "theta.alt"));
  ((tx "ell"), JSymbol);
  ((tx "sin"), JSymbol);
  ((tx "cos"), JSymbol);
  ((tx "tan"), JSymbol);
  ((tx "cot"), JSymbol);
  ((tx "sec"), JSymbol);
  ((tx "csc"), JSymbol);
  ((tx "arcsin"), JSymbol);
  ((tx "arccos"), JSymbol);
  ((tx "arctan"), JSymbol);
  ((tx "sinh"), JSymbol);
  ((tx "cosh"), JSymbol);
  ((tx "tanh"), JSymbol);
  ((tx "coth"), JSymbol);
  ((tx "ln"), JSymbol);
  ((tx "log"), JSymbol);
  ((tx "lg"), JSymbol);
  ((tx "lim"), JSymbol);
  ((tx "limsup"), JSymbol);
  ((tx "liminf"), JSymbol);
  ((tx "hom"), JSymbol);
  ((tx "det"), JSymbol);
  ((tx "exp"), JSymbol);
  ((tx "deg"), JSymbol);
  ((tx "gcd"), JSymbol);
  ((tx "lcm"), JSymbol);
  ((tx "dim"), JSymbol);
  ((tx "ker"), JSymbol);
  ((tx "arg"), JSymbol);
  ((tx "Pr"), JSymbol);
  ((tx "max"), JSymbol);
  ((tx "min"), JSymbol);
  ((tx "argmax"), JSymbol);
  ((tx "argmin"), JSymbol);
  ((tx "sup"), JSymbol);
  ((tx "inf"), JSymbol);
  ((tx "sum"), JSymbol);
  ((tx "prod"), JSymAlias (tx "product"));
  ((tx "int"), JSymAlias (tx "integral"));
  ((tx "iint"), JSymAlias (tx "integral.double"));
  ((tx "iiint"), JSymAlias (tx "integral.triple"));
  ((tx "oint"), JSymAlias (tx "integral.cont"));
  ((tx "oiint"), JSymAlias (tx "integral.surf"));
  ((tx "oiiint"), JSymAlias (tx "integral.vol"));
  ((tx "mod"), JSymAlias (tx "mod"));
  ((tx "bmod"), JSymAlias (tx "mod"));
  ((tx "cdot"), JSymAlias (tx "dot.c"));
  ((tx "cdotp"), JSymAlias (tx "dot.c"));
  ((tx "sdot"), JSymAlias (tx "dot.c"));
  ((tx "times"), JSymAlias (tx "times"));
  ((tx "oplus"), JSymAlias (tx "plus.o"));
  ((tx "ominus"), JSymAlias (tx "minus.o"));
  ((tx "pm"), JSymAlias (tx "plus.minus"));
  ((tx "plusmn"), JSymAlias (tx "plus.minus"));
  ((tx "mp"), JSymAlias (tx "minus.plus"));
  ((tx "div"), JSymAlias (tx "div"));
  ((tx "star"), JSymAlias (tx "star"));
  ((tx "cap"), JSymAlias (tx "inter"));
  ((tx "cup"), JSymAlias (tx "union"));
  ((tx "in"), JSymAlias (tx "in"));
  ((tx "isin"), JSymAlias (tx "in"));
  ((tx "notin"), JSymAlias (tx "in.not"));
  ((tx "subset"), JSymAlias (tx "subset"));
  ((tx "subseteq"), JSymAlias (tx "subset.eq"));
  ((tx "subsetneqq"), JSymAlias [10955]);
  ((tx "ne"), JSymAlias (tx "!="));
  ((tx "neq"), JSymAlias (tx "!="));
  ((tx "lt"), JSymAlias (tx "<"));
  ((tx "gt"), JSymAlias (tx ">"));
  ((tx "le"), JSymAlias (tx "<="));
  ((tx "ge"), JSymAlias (tx ">="));
  ((tx "leq"), JSymAlias (tx "<="));
  ((tx "geq"), JSymAlias (tx ">="));
  ((tx "leqslant"), JSymAlias (tx "lt.eq.slant"));
  ((tx "geqslant"), JSymAlias (tx "gt.eq.slant"));
  ((tx "eqslantgtr"), JSymAlias [10902]);
  ((tx "eqslantless"), JSymAlias [10901]);
  ((tx "approx"), JSymAlias (tx "approx"));
  ((tx "leftarrow"), JSymAlias (tx "<-"));
  ((tx "rightarrow"), JSymAlias (tx "->"));
  ((tx "leftrightarrow"), JSymAlias (tx "<->"));
  ((tx "Leftarrow"), JSymAlias (tx "arrow.l.double"));
  ((tx "Rightarrow"), JSymAlias (tx "=>"));
  ((tx "Leftrightarrow"), JSymAlias (tx "<=>"));
  ((tx "larr"), JSymAlias (tx "<-"));
  ((tx "rarr"), JSymAlias (tx "->"));
  ((tx "lrarr"), JSymAlias (tx "<->"));
  ((tx "lArr"), JSymAlias (tx "arrow.l.double"));
  ((tx "rArr"), JSymAlias (tx "=>"));
  ((tx "lrArr"), JSymAlias (tx "<=>"));
  ((tx "Larr"), JSymAlias (tx "arrow.l.double"));
  ((tx "Rarr"), JSymAlias (tx "=>"));
  ((tx "Lrarr"), JSymAlias (tx "<=>"));
  ((tx "longleftarrow"), JSymAlias (tx "<--"));
  ((tx "longrightarrow"), JSymAlias (tx "-->"));
  ((tx "longleftrightarrow"), JSymAlias (tx "<-->"));
  ((tx "Longleftarrow"), JSymAlias (tx "<=="));
  ((tx "Longrightarrow"), JSymAlias (tx "==>"));
  ((tx "Longleftrightarrow"), JSymAlias (tx "<==>"));
  ((tx "to"), JSymAlias (tx "->"));
  ((tx "implies"), JSymAlias (tx "==>"));
  ((tx "impliedby"), JSymAlias (tx "<=="));
  ((tx "gets"), JSymAlias (tx "<-"));
  ((tx "mapsto"), JSymAlias (tx "|->"));
  ((tx "infty"), JSymAlias (tx "oo"));
  ((tx "lbrack"), JSymAlias (tx "bracket.l"));
  ((tx "rbrack"), JSymAlias (tx "bracket.r"));
  ((tx "lgroup"), JSymAlias [10222]);
  ((tx "rgroup"), JSymAlias [10223]);
  ((tx "llbracket"), JSymAlias (tx "bracket.stroked.l"));
  ((tx "rrbracket"), JSymAlias (tx "bracket.stroked.r"));
  ((tx "angle"), JSymAlias (tx "angle"));
  ((tx "lang"), JSymAlias (tx "chevron.l"));
  ((tx "rang"), JSymAlias (tx "chevron.r"));
  ((tx "langle"), JSymAlias (tx "chevron.l"));
  ((tx "rangle"), JSymAlias (tx "chevron.r"));
  ((tx "measuredangle"), JSymAlias (tx "angle.arc"));
  ((tx "sphericalangle"), JSymAlias (tx "angle.spheric"));
  ((tx "ast"), JSymAlias (tx "ast"));
  ((tx "checkmark"), JSymAlias (tx "checkmark"));
  ((tx "circledast"), JSymAlias (tx "convolve.o"));
  ((tx "backslash"), JSymAlias (tx "backslash"));
  ((tx "dagger"), JSymAlias (tx "dagger"));
  ((tx "ddagger"), JSymAlias (tx "dagger.double"));
  ((tx "circleddash"), JSymAlias (tx "dash.o"));
  ((tx "odot"), JSymAlias (tx "dot.o"));
  ((tx "bigodot"), JSymAlias (tx "dot.o.big"));
  ((tx "boxdot"), JSymAlias (tx "dot.square"));
  ((tx "dots"), JSymAlias (tx "dots.h"));
  ((tx "cdots"), JSymAlias (tx "dots.h.c"));
  ((tx "ldots"), JSymAlias (tx "dots.h"));
  ((tx "vdots"), JSymAlias (tx "dots.v"));
  ((tx "ddots"), JSymAlias (tx "dots.down"));
  ((tx "dotsb"), JSymAlias (tx "dots.h.c"));
  ((tx "dotsc"), JSymAlias (tx "dots.h"));
  ((tx "dotsi"), JSymAlias (tx "dots.h.c"));
  ((tx "dotsm"), JSymAlias (tx "dots.h.c"));
  ((tx "dotso"), JSymAlias (tx "dots.h"));
  ((tx "sim"), JSymAlias (tx "tilde"));
  ((tx "simeq"), JSymAlias (tx "tilde.eq"));
  ((tx "backsimeq"), JSymAlias (tx "tilde.eq.rev"));
  ((tx "cong"), JSymAlias (tx "tilde.equiv"));
  ((tx "ncong"), JSymAlias (tx "tilde.equiv.not"));
  ((tx "nsim"), JSymAlias (tx "tilde.not"));
  ((tx "backsim"), JSymAlias (tx "tilde.rev"));
  ((tx "prime"), JSymAlias (tx "prime"));
  ((tx "backprime"), JSymAlias (tx "prime.rev"));
  ((tx "bigoplus"), JSymAlias (tx "plus.o.big"));
  ((tx "dotplus"), JSymAlias (tx "plus.dot"));
  ((tx "boxplus"), JSymAlias (tx "plus.square"));
  ((tx "boxminus"), JSymAlias (tx "minus.square"));
  ((tx "eqsim"), JSymAlias (tx "minus.tilde"));
  ((tx "otimes"), JSymAlias (tx "times.o"));
  ((tx "bigotimes"), JSymAlias (tx "times.o.big"));
  ((tx "divideontimes"), JSymAlias (tx "times.div"));
  ((tx "leftthreetimes"), JSymAlias (tx "times.three.l"));
  ((tx "rightthreetimes"), JSymAlias (tx "times.three.r"));
  ((tx "ltimes"), JSymAlias (tx "times.l"));
  ((tx "rtimes"), JSymAlias (tx "times.r"));
  ((tx "boxtimes"), JSymAlias (tx "times.square"));
  ((tx "triangleq"), JSymAlias (tx "eq.delta"));
  ((tx "curlyeqprec"), JSymAlias (tx "eq.prec"));
  ((tx "curlyeqsucc"), JSymAlias (tx "eq.succ"));
  ((tx "gtrdot"), JSymAlias (tx "gt.dot"));
  ((tx "gg"), JSymAlias (tx "gt.double"));
  ((tx "gtreqless"), JSymAlias (tx "gt.eq.lt"));
  ((tx "gtreqqless"), JSymAlias [10892]);
  ((tx "gtrapprox"), JSymAlias (tx "gt.approx"));
  ((tx "ngeq"), JSymAlias (tx "gt.eq.not"));
  ((tx "geqq"), JSymAlias (tx "gt.equiv"));
  ((tx "ngeqq"), JSymbol);
  ((tx "gtrless"), JSymAlias (tx "gt.lt"));
  ((tx "gneqq"), JSymAlias (tx "gt.nequiv"));
  ((tx "ngtr"), JSymAlias (tx "gt.not"));
  ((tx "gnsim"), JSymAlias (tx "gt.ntilde"));
  ((tx "gtrsim"), JSymAlias (tx "gt.tilde"));
  ((tx "vartriangleright"), JSymAlias (tx "gt.tri"));
  ((tx "trianglerighteq"), JSymAlias (tx "gt.tri.eq"));
  ((tx "ntrianglerighteq"), JSymAlias (tx "gt.tri.eq.not"));
  ((tx "ntriangleright"), JSymAlias (tx "gt.tri.not"));
  ((tx "ggg"), JSymAlias (tx "gt.triple"));
  ((tx "lessdot"), JSymAlias (tx "lt.dot"));
  ((tx "ll"), JSymAlias (tx "lt.double"));
  ((tx "lesseqgtr"), JSymAlias (tx "lt.eq.gt"));
  ((tx "nleq"), JSymAlias (tx "lt.eq.not"));
  ((tx "nleqslant"), JSymbol);
  ((tx "leqq"), JSymAlias (tx "lt.equiv"));
  ((tx "nleqq"), JSymbol);
  ((tx "lessgtr"), JSymAlias (tx "lt.gt"));
  ((tx "lneqq"), JSymAlias (tx "lt.nequiv"));
  ((tx "nless"), JSymAlias (tx "lt.not"));
  ((tx "lnsim"), JSymAlias (tx "lt.ntilde"));
  ((tx "lesssim"), JSymAlias (tx "lt.tilde"));
  ((tx "vartriangleleft"), JSymAlias (tx "lt.tri"));
  ((tx "trianglelefteq"), JSymAlias (tx "lt.tri.eq"));
  ((tx "ntrianglelefteq"), JSymAlias (tx "lt.tri.eq.not"));
  ((tx "ntriangleleft"), JSymAlias (tx "lt.tri.not"));
  ((tx "lll"), JSymAlias (tx "lt.triple"));
  ((tx "approxeq"), JSymAlias (tx "approx.eq"));
  ((tx "prec"), JSymAlias (tx "prec"));
  ((tx "precapprox"), JSymAlias (tx "prec.approx"));
  ((tx "preceq"), JSymAlias (tx "prec.eq"));
  ((tx "preccurlyeq"), JSymAlias (tx "prec.eq"));
  ((tx "npreceq"), JSymAlias (tx "prec.eq.not"));
  ((tx "precnapprox"), JSymAlias (tx "prec.napprox"));
  ((tx "nprec"), JSymAlias (tx "prec.not"));
  ((tx "precnsim"), JSymAlias (tx "prec.ntilde"));
  ((tx "precsim"), JSymAlias (tx "prec.tilde"));
  ((tx "succ"), JSymAlias (tx "succ"));
  ((tx "succapprox"), JSymAlias (tx "succ.approx"));
  ((tx "succeq"), JSymAlias (tx "succ.eq"));
  ((tx "succcurlyeq"), JSymAlias (tx "succ.eq"));
  ((tx "nsucceq"), JSymAlias (tx "succ.eq.not"));
  ((tx "succnapprox"), JSymAlias (tx "succ.napprox"));
  ((tx "nsucc"), JSymAlias (tx "succ.not"));
  ((tx "succnsim"), JSymAlias (tx "succ.ntilde"));
  ((tx "succsim"), JSymAlias (tx "succ.tilde"));
  ((tx "equiv"), JSymAlias (tx "equiv"));
  ((tx "propto"), JSymAlias (tx "prop"));
  ((tx "empty"), JSymAlias (tx "nothing"));
  ((tx "emptyset"), JSymAlias (tx "nothing"));
  ((tx "varnothing"), JSymAlias (tx "nothing"));
  ((tx "o"), JSymAlias (tx "nothing"));
  ((tx "O"), JSymAlias (tx "nothing"));
  ((tx "osplash"), JSymAlias [8856]);
  ((tx "setminus"), JSymAlias (tx "without"));
  ((tx "And"), JSymAlias (tx "amp"));
  ((tx "bigcirc"), JSymAlias (tx "circle.stroked.big"));
  ((tx "smallsetminus"), JSymAlias (tx "without"));
  ((tx "complement"), JSymAlias (tx "complement"));
  ((tx "ni"), JSymAlias (tx "in.rev"));
  ((tx "notni"), JSymAlias (tx "in.rev.not"));
  ((tx "Subset"), JSymAlias (tx "subset.double"));
  ((tx "nsubseteq"), JSymAlias (tx "subset.eq.not"));
  ((tx "nsubseteqq"), JSymbol);
  ((tx "sqsubseteq"), JSymAlias (tx "subset.eq.sq"));
  ((tx "subsetneq"), JSymAlias (tx "subset.neq"));
  ((tx "supset"), JSymAlias (tx "supset"));
  ((tx "Supset"), JSymAlias (tx "supset.double"));
  ((tx "supseteq"), JSymAlias (tx "supset.eq"));
  ((tx "nsupseteq"), JSymAlias (tx "supset.eq.not"));
  ((tx "nsupseteqq"), JSymbol);
  ((tx "sqsupseteq"), JSymAlias (tx "supset.eq.sq"));
  ((tx "supsetneq"), JSymAlias (tx "supset.neq"));
  ((tx "bigcup"), JSymAlias (tx "union.big"));
  ((tx "Cup"), JSymAlias (tx "union.double"));
  ((tx "uplus"), JSymAlias (tx "union.plus"));
  ((tx "biguplus"), JSymAlias (tx "union.plus.big"));
  ((tx "sqcup"), JSymAlias (tx "union.sq"));
  ((tx "bigsqcup"), JSymAlias (tx "union.sq.big"));
  ((tx "bigcap"), JSymAlias (tx "inter.big"));
  ((tx "Cap"), JSymAlias (tx "inter.double"));
  ((tx "sqcap"), JSymAlias (tx "inter.sq"));
  ((tx "partial"), JSymAlias (tx "partial"));
  ((tx "nabla"), JSymAlias (tx "nabla"));
  ((tx "coprod"), JSymAlias (tx "product.co"));
  ((tx "forall"), JSymAlias (tx "forall"));
  ((tx "exist"), JSymAlias (tx "exists"));
  ((tx "exists"), JSymAlias (tx "exists"));
  ((tx "nexists"), JSymAlias (tx "exists.not"));
  ((tx "top"), JSymAlias (tx "top"));
  ((tx "bot"), JSymAlias (tx "bot"));
  ((tx "neg"), JSymAlias (tx "not"));
  ((tx "lnot"), JSymAlias (tx "not"));
  ((tx "land"), JSymAlias (tx "and"));
  ((tx "wedge"), JSymAlias (tx "and"));
  ((tx "lor"), JSymAlias (tx "or"));
  ((tx "bigwedge"), JSymAlias (tx "and.big"));
  ((tx "curlywedge"), JSymAlias (tx "and.curly"));
  ((tx "vee"), JSymAlias (tx "or"));
  ((tx "bigvee"), JSymAlias (tx "or.big"));
  ((tx "curlyvee"), JSymAlias (tx "or.curly"));
  ((tx "models"), JSymAlias (tx "models"));
  ((tx "therefore"), JSymAlias (tx "therefore"));
  ((tx "because"), JSymAlias (tx "because"));
  ((tx "blacksquare"), JSymAlias (tx "qed"));
  ((tx "circ"), JSymAlias (tx "compose"));
  ((tx "multimap"), JSymAlias (tx "multimap"));
  ((tx "mid"), JSymAlias (tx "divides"));
  ((tx "nmid"), JSymAlias (tx "divides.not"));
  ((tx "wr"), JSymAlias (tx "wreath"));
  ((tx "parallel"), JSymAlias (tx "parallel"));
  ((tx "shortparallel"), JSymAlias (tx "parallel"));
  ((tx "nparallel"), JSymAlias (tx "parallel.not"));
  ((tx "perp"), JSymAlias (tx "perp"));
  ((tx "Join"), JSymAlias (tx "join"));
  ((tx "pounds"), JSymAlias (tx "pound"));
  ((tx "clubsuit"), JSymAlias (tx "suit.club"));
  ((tx "spadesuit"), JSymAlias (tx "suit.spade"));
  ((tx "bull"), JSymAlias (tx "bullet"));
  ((tx "bullet"), JSymAlias (tx "bullet"));
  ((tx "circledcirc"), JSymAlias (tx "compose.o"));
  ((tx "rhd"), JSymAlias (tx "triangle.stroked.r"));
  ((tx "lhd"), JSymAlias (tx "triangle.stroked.l"));
  ((tx "triangle"), JSymAlias (tx "triangle.stroked.t"));
  ((tx "bigtriangleup"), JSymAlias (tx "triangle.stroked.t"));
  ((tx "bigtriangledown"), JSymAlias (tx "triangle.stroked.b"));
  ((tx "triangleright"), JSymAlias (tx "triangle.stroked.small.r"));
  ((tx "triangledown"), JSymAlias (tx "triangle.stroked.small.b"));
  ((tx "triangleleft"), JSymAlias (tx "triangle.stroked.small.l"));
  ((tx "vartriangle"), JSymAlias (tx "triangle.stroked.small.t"));
  ((tx "square"), JSymAlias (tx "square.stroked"));
  ((tx "Diamond"), JSymAlias (tx "diamond.stroked"));
  ((tx "diamond"), JSymAlias (tx "diamond.stroked.small"));
  ((tx "diamonds"), JSymAlias (tx "diamond.stroked"));
  ((tx "diamondsuit"), JSymAlias (tx "diamond.stroked"));
  ((tx "lozenge"), JSymAlias (tx "lozenge.stroked"));
  ((tx "blacklozenge"), JSymAlias (tx "lozenge.filled"));
  ((tx "bigstar"), JSymAlias (tx "star.stroked"));
  ((tx "longmapsto"), JSymAlias (tx "arrow.r.long.bar"));
  ((tx "nRightarrow"), JSymAlias (tx "arrow.r.double.not"));
  ((tx "hookrightarrow"), JSymAlias (tx "arrow.r.hook"));
  ((tx "looparrowright"), JSymAlias (tx "arrow.r.loop"));
  ((tx "nrightarrow"), JSymAlias (tx "arrow.r.not"));
  ((tx "rightsquigarrow"), JSymAlias (tx "arrow.r.squiggly"));
  ((tx "rightarrowtail"), JSymAlias (tx "arrow.r.tail"));
  ((tx "Rrightarrow"), JSymAlias (tx "arrow.r.triple"));
  ((tx "twoheadrightarrow"), JSymAlias (tx "arrow.r.twohead"));
  ((tx "nLeftarrow"), JSymAlias (tx "arrow.l.double.not"));
  ((tx "hookleftarrow"), JSymAlias (tx "arrow.l.hook"));
  ((tx "looparrowleft"), JSymAlias (tx "arrow.l.loop"));
  ((tx "nleftarrow"), JSymAlias (tx "arrow.l.not"));
  ((tx "leftarrowtail"), JSymAlias (tx "arrow.l.tail"));
  ((tx "Lleftarrow"), JSymAlias (tx "arrow.l.triple"));
  ((tx "twoheadleftarrow"), JSymAlias (tx "arrow.l.twohead"));
  ((tx "uparrow"), JSymAlias (tx "arrow.t"));
  ((tx "Uparrow"), JSymAlias (tx "arrow.t.double"));
  ((tx "downarrow"), JSymAlias (tx "arrow.b"));
  ((tx "Downarrow"), JSymAlias (tx "arrow.b.double"));
  ((tx "iff"), JSymAlias (tx "arrow.l.r.double.long"));
  ((tx "nLeftrightarrow"), JSymAlias (tx "arrow.l.r.double.not"));
  ((tx "nleftrightarrow"), JSymAlias (tx "arrow.l.r.not"));
  ((tx "leftrightsquigarrow"), JSymAlias (tx "arrow.l.r.wave"));
  ((tx "updownarrow"), JSymAlias (tx "arrow.t.b"));
  ((tx "Updownarrow"), JSymAlias (tx "arrow.t.b.double"));
  ((tx "nearrow"), JSymAlias (tx "arrow.tr"));
  ((tx "searrow"), JSymAlias (tx "arrow.br"));
  ((tx "nwarrow"), JSymAlias (tx "arrow.tl"));
  ((tx "swarrow"), JSymAlias (tx "arrow.bl"));
  ((tx "circlearrowleft"), JSymAlias (tx "arrow.ccw"));
  ((tx "curvearrowleft"), JSymAlias (tx "arrow.ccw.half"));
  ((tx "circlearrowright"), JSymAlias (tx "arrow.cw"));
  ((tx "curvearrowright"), JSymAlias (tx "arrow.cw.half"));
  ((tx "rightrightarrows"), JSymAlias (tx "arrows.rr"));
  ((tx "leftleftarrows"), JSymAlias (tx "arrows.ll"));
  ((tx "upuparrows"), JSymAlias (tx "arrows.tt"));
  ((tx "downdownarrows"), JSymAlias (tx "arrows.bb"));
  ((tx "leftrightarrows"), JSymAlias (tx "arrows.lr"));
  ((tx "rightleftarrows"), JSymAlias (tx "arrows.rl"));
  ((tx "rightharpoonup"), JSymAlias (tx "harpoon.rt"));
  ((tx "rightharpoondown"), JSymAlias (tx "harpoon.rb"));
  ((tx "leftharpoonup"), JSymAlias (tx "harpoon.lt"));
  ((tx "leftharpoondown"), JSymAlias (tx "harpoon.lb"));
  ((tx "upharpoonleft"), JSymAlias (tx "harpoon.tl"));
  ((tx "upharpoonright"), JSymAlias (tx "harpoon.tr"));
  ((tx "downharpoonleft"), JSymAlias (tx "harpoon.bl"));
  ((tx "downharpoonright"), JSymAlias (tx "harpoon.br"));
  ((tx "leftrightharpoons"), JSymAlias (tx "harpoons.ltrb"));
  ((tx "rightleftharpoons"), JSymAlias (tx "harpoons.rtlb"));
  ((tx "vdash"), JSymAlias (tx "tack.r"));
  ((tx "nvdash"), JSymAlias (tx "tack.r.not"));
  ((tx "vDash"), JSymAlias (tx "tack.r.double"));
  ((tx "nvDash"), JSymAlias (tx "tack.r.double.not"));
  ((tx "dashv"), JSymAlias (tx "tack.l"));
  ((tx "hbar"), JSymAlias (tx "planck"));
  ((tx "hslash"), JSymAlias (tx "planck"));
  ((tx "Re"), JSymAlias (tx "Re"));
  ((tx "Im"), JSymAlias (tx "Im"));
  ((tx "AA"), JSymAlias (tx "circle(A)"));
  ((tx "aa"), JSymAlias (tx "circle(A)"));
  ((tx "Box"), JSymAlias (tx "ballot"));
  ((tx "N"), JSymAlias (tx "NN"));
  ((tx "natnums"), JSymAlias (tx "NN"));
  ((tx "natural"), JSymAlias [9838]);
  ((tx "P"), JSymAlias (tx "pilcrow"));
  ((tx "Q"), JSymAlias (tx "QQ"));
  ((tx "R"), JSymAlias (tx "RR"));
  ((tx "Z"), JSymAlias (tx "ZZ"));
  ((tx "S"), JSymAlias (tx "section"));
  ((tx "sect"), JSymAlias (tx "section"));
  ((tx "AE"), JSymAlias [198]);
  ((tx "ae"), JSymAlias [230]);
  ((tx "alef"), JSymAlias (tx "aleph"));
  ((tx "alefsym"), JSymAlias (tx "aleph"));
  ((tx "aleph"), JSymAlias (tx "aleph"));
  ((tx "amalg"), JSymAlias (tx "product.co"));
  ((tx "arctg"), JSymbol);
  ((tx "asymp"), JSymAlias [8781]);
  ((tx "ch"), JSymbol);
  ((tx "circeq"), JSymAlias [8791]);
  ((tx "colon"), JSymAlias (tx "colon"));
  ((tx "cth"), JSymbol);
  ((tx "dag"), JSymAlias (tx "dagger"));
  ((tx "Dagger"), JSymAlias (tx "dagger.double"));
  ((tx "ddag"), JSymAlias (tx "dagger.double"));
  ((tx "daleth"), JSymAlias [8504]);
  ((tx "sharp"), JSymAlias [9839]);
  ((tx "flat"), JSymAlias [9837]);
  ((tx "i"), JSymAlias (tx "dotless.i"));
  ((tx "j"), JSymAlias (tx "dotless.j"));
  ((tx "imath"), JSymAlias (tx "dotless.i"));
  ((tx "jmath"), JSymAlias (tx "dotless.j"));
  ((tx "smallsmile"), JSymAlias [8995]);
  ((tx "smile"), JSymAlias [8995]);
  ((tx "ss"), JSymAlias [223]);
  ((tx "surd"), JSymAlias [92; 8730]);
  ((tx "tg"), JSymAlias (tx "tg"));
  ((tx "th"), JSymbol);
  ((tx "weierp"), JSymAlias [8472]);
  ((tx "wp"), JSymAlias [8472]);
  ((tx "lbrace"), JSymAlias (tx "\{"));
  ((tx "rbrace"), JSymAlias (tx "\}"));
  ((tx "doteq"), JSymAlias [8784]);
  ((tx "Vdash"), JSymAlias [8873]);
  ((tx "Doteq"), JSymAlias [8785]);
  ((tx "Vvdash"), JSymAlias [8874]);
  ((tx "gnapprox"), JSymAlias [10890]);
  ((tx "ngeqslant"), JSymAlias (tx "gt.eq.not"));
  ((tx "precneqq"), JSymAlias (tx "prec.nequiv"));
  ((tx "gneq"), JSymAlias [10888]);
  ((tx "approxcolon"), JSymAlias (tx "approx:"));
  ((tx "approxcoloncolon"), JSymAlias (tx "approx::"));
  ((tx "backepsilon"), JSymAlias (tx "in.rev.small"));
  ((tx "barwedge"), JSymAlias [8892]);
  ((tx "beth"), JSymAlias (tx "beth"));
  ((tx "between"), JSymAlias [8812]);
  ((tx "bigdot"), JSymAlias (tx "dot.o.big"));
  ((tx "bigplus"), JSymAlias (tx "plus.o.big"));
  ((tx "bigtimes"), JSymAlias (tx "times.o.big"));
  ((tx "blacktriangle"), JSymAlias (tx "triangle.filled.t"));
  ((tx "blacktriangledown"), JSymAlias (tx "triangle.filled.b"));
  ((tx "blacktriangleleft"), JSymAlias (tx "triangle.filled.l"));
  ((tx "blacktriangleright"), JSymAlias (tx "triangle.filled.r"));
  ((tx "bowtie"), JSymAlias [8904]);
  ((tx "Bumpeq"), JSymAlias [8782]);
  ((tx "bumpeq"), JSymAlias [8783]);
  ((tx "centerdot"), JSymAlias (tx "dot.op"));
  ((tx "circledR"), JSymAlias [174]);
  ((tx "circledS"), JSymAlias [9416]);
  ((tx "clubs"), JSymAlias (tx "suit.club"));
  ((tx "cnums"), JSymAlias (tx "CC"));
  ((tx "Colonapprox"), JSymAlias (tx "::approx"));
  ((tx "colonapprox"), JSymAlias (tx ":approx"));
  ((tx "coloncolon"), JSymAlias (tx "::"));
  ((tx "coloncolonapprox"), JSymAlias (tx "::approx"));
  ((tx "coloncolonequals"), JSymAlias (tx "::="));
  ((tx "coloncolonminus"), JSymAlias [58; 58; 8722]);
  ((tx "coloncolonsim"), JSymAlias (tx "::tilde.op"));
  ((tx "Coloneq"), JSymAlias [58; 58; 8722]);
  ((tx "coloneq"), JSymAlias [58; 8722]);
  ((tx "colonequals"), JSymAlias (tx ":="));
  ((tx "Coloneqq"), JSymAlias (tx "::="));
  ((tx "coloneqq"), JSymAlias (tx ":="));
  ((tx "colonminus"), JSymAlias [58; 8722]);
  ((tx "Colonsim"), JSymAlias (tx "::tilde.op"));
  ((tx "colonsim"), JSymAlias (tx ":tilde.op"));
  ((tx "Complex"), JSymAlias (tx "CC"));
  ((tx "copyright"), JSymAlias (tx "copyright"));
  ((tx "ctg"), JSymAlias (tx "ctg"));
  ((tx "Darr"), JSymAlias (tx "arrow.b.double"));
  ((tx "dArr"), JSymAlias (tx "arrow.b.double"));
  ((tx "darr"), JSymAlias (tx "arrow.b"));
  ((tx "dashleftarrow"), JSymAlias (tx "arrow.l.dash"));
  ((tx "dashrightarrow"), JSymAlias (tx "arrow.r.dash"));
  ((tx "dbcolon"), JSymAlias (tx "::"));
  ((tx "degree"), JSymAlias (tx "degree"));
  ((tx "digamma"), JSymAlias [989]);
  ((tx "diagdown"), JSymAlias [9586]);
  ((tx "diagup"), JSymAlias [9585]);
  ((tx "doteqdot"), JSymAlias [8785]);
  ((tx "doublebarwedge"), JSymAlias [10846]);
  ((tx "doublecap"), JSymAlias (tx "inter.double"));
  ((tx "doublecup"), JSymAlias (tx "union.double"));
  ((tx "eqcirc"), JSymAlias [8790]);
  ((tx "Eqcolon"), JSymAlias [8722; 58; 58]);
  ((tx "eqcolon"), JSymAlias (tx "dash.colon"));
  ((tx "Eqqcolon"), JSymAlias (tx "=::"));
  ((tx "eqqcolon"), JSymAlias (tx "=:"));
  ((tx "equalscolon"), JSymAlias (tx "=:"));
  ((tx "equalscoloncolon"), JSymAlias (tx "=::"));
  ((tx "eth"), JSymAlias [240]);
  ((tx "fallingdotseq"), JSymAlias [8786]);
  ((tx "Finv"), JSymAlias [8498]);
  ((tx "frown"), JSymAlias [8994]);
  ((tx "Game"), JSymAlias [8513]);
  ((tx "gggtr"), JSymAlias (tx ">>>"));
  ((tx "gimel"), JSymAlias (tx "gimel"));
  ((tx "Harr"), JSymAlias (tx "<=>"));
  ((tx "hArr"), JSymAlias (tx "<=>"));
  ((tx "harr"), JSymAlias (tx "<->"));
  ((tx "hearts"), JSymAlias [9825]);
  ((tx "heartsuit"), JSymAlias [9825]);
  ((tx "image"), JSymAlias (tx "Im"));
  ((tx "imageof"), JSymAlias [8887]);
  ((tx "infin"), JSymAlias (tx "infinity"));
  ((tx "intercal"), JSymAlias [8890]);
  ((tx "intop"), JSymAlias (tx "integral"));
  ((tx "lBrace"), JSymAlias [10627]);
  ((tx "ldotp"), JSymAlias (tx "."));
  ((tx "leadsto"), JSymAlias (tx "arrow.r.squiggly"));
  ((tx "lessapprox"), JSymAlias [10885]);
  ((tx "lesseqqgtr"), JSymAlias [10891]);
  ((tx "llcorner"), JSymAlias [8990]);
  ((tx "llless"), JSymAlias (tx "<<<"));
  ((tx "lnapprox"), JSymAlias [10889]);
  ((tx "lneq"), JSymAlias [10887]);
  ((tx "lrcorner"), JSymAlias [8991]);
  ((tx "lq"), JSymAlias (tx "quote.l.single"));
  ((tx "Lsh"), JSymAlias [8624]);
  ((tx "maltese"), JSymAlias (tx "maltese"));
  ((tx "mathellipsis"), JSymAlias (tx "..."));
  ((tx "mathsterling"), JSymAlias (tx "pound"));
  ((tx "mho"), JSymAlias (tx "Omega.inv"));
  ((tx "minuscolon"), JSymAlias (tx "dash.colon"));
  ((tx "minuscoloncolon"), JSymAlias [8722; 58; 58]);
  ((tx "minuso"), JSymAlias [10677]);
  ((tx "newline"), JSymAlias (tx "\"));
  ((tx "nVDash"), JSymAlias [8879]);
  ((tx "nVdash"), JSymAlias [8878]);
  ((tx "OE"), JSymAlias [338]);
  ((tx "oe"), JSymAlias [339]);
  ((tx "origof"), JSymAlias [8886]);
  ((tx "oslash"), JSymAlias [8856]);
  ((tx "owns"), JSymAlias (tx "in.rev"));
  ((tx "pitchfork"), JSymAlias [8916]);
  ((tx "ratio"), JSymAlias (tx ":"));
  ((tx "rBrace"), JSymAlias [10628]);
  ((tx "real"), JSymAlias (tx "Re"));
  ((tx "Reals"), JSymAlias (tx "RR"));
  ((tx "reals"), JSymAlias (tx "RR"));
  ((tx "restriction"), JSymAlias (tx "harpoon.tr"));
  ((tx "risingdotseq"), JSymAlias [8787]);
  ((tx "rmoustache"), JSymAlias [9137]);
  ((tx "rq"), JSymAlias (tx "'"));
  ((tx "Rsh"), JSymAlias [8625]);
  ((tx "simcolon"), JSymAlias (tx "tilde.op:"));
  ((tx "simcoloncolon"), JSymAlias (tx "tilde.op::"));
  ((tx "spades"), JSymAlias (tx "suit.spade"));
  ((tx "sqsubset"), JSymAlias (tx "subset.sq"));
  ((tx "sqsupset"), JSymAlias (tx "supset.sq"));
  ((tx "sub"), JSymAlias (tx "subset"));
  ((tx "sube"), JSymAlias (tx "subset.eq"));
  ((tx "subseteqq"), JSymAlias [10949]);
  ((tx "succneqq"), JSymAlias (tx "succ.nequiv"));
  ((tx "supe"), JSymAlias (tx "supset.eq"));
  ((tx "supseteqq"), JSymAlias [10950]);
  ((tx "supsetneqq"), JSymAlias [10956]);
  ((tx "textasciitilde"), JSymAlias (tx "~"));
  ((tx "textasciicircum"), JSymAlias (tx "\^"));
  ((tx "textbackslash"), JSymAlias (tx "\\"));
  ((tx "textbar"), JSymAlias (tx "\|"));
  ((tx "textbardbl"), JSymAlias [8214]);
  ((tx "textbraceleft"), JSymAlias (tx "{"));
  ((tx "textbraceright"), JSymAlias (tx "}"));
  ((tx "textdagger"), JSymAlias (tx "dagger"));
  ((tx "textdaggerdbl"), JSymAlias (tx "dagger.double"));
  ((tx "textdegree"), JSymAlias (tx "degree"));
  ((tx "textdollarsign"), JSymAlias (tx "\$"));
  ((tx "textellipsis"), JSymAlias (tx "..."));
  ((tx "textemdash"), JSymAlias (tx "---"));
  ((tx "textendash"), JSymAlias (tx "--"));
  ((tx "textgreater"), JSymAlias (tx "gt"));
  ((tx "textless"), JSymAlias (tx "lt"));
  ((tx "textquotedblleft"), JSymAlias (tx "quote.l.double"));
  ((tx "textquotedblright"), JSymAlias (tx "quote.r.double"));
  ((tx "textquoteleft"), JSymAlias (tx "quote.l.single"));
  ((tx "textquoteright"), JSymAlias (tx "quote.r.single"));
  ((tx "textregistered"), JSymAlias [174]);
  ((tx "textperthousand"), JSymAlias (tx "permille"));
  ((tx "textsterling"), JSymAlias (tx "pound"));
  ((tx "textunderscore"), JSymAlias (tx "\_"));
  ((tx "thetasym"), JSymAlias (tx "theta.alt"));
  ((tx "Uarr"), JSymAlias (tx "arrow.t.double"));
  ((tx "uArr"), JSymAlias (tx "arrow.t.double"));
  ((tx "uarr"), JSymAlias (tx "arrow.t"));
  ((tx "ulcorner"), JSymAlias [8988]);
  ((tx "unlhd"), JSymAlias (tx "lt.tri.eq"));
  ((tx "unrhd"), JSymAlias (tx "gt.tri.eq"));
  ((tx "urcorner"), JSymAlias [8989]);
  ((tx "varpropto"), JSymAlias (tx "prop"));
  ((tx "varsubsetneq"), JSymAlias (tx "subset.neq"));
  ((tx "varsubsetneqq"), JSymAlias [10955]);
  ((tx "varsupsetneq"), JSymAlias (tx "supset.neq"));
  ((tx "varsupsetneqq"), JSymAlias [10956]);
  ((tx "vcentcolon"), JSymAlias (tx ":"));
  ((tx "veebar"), JSymAlias [8891]);
  ((tx "yen"), JSymAlias (tx "yen"));
  ((tx "arcctg"), JSymbol);
  ((tx "begingroup"), JSymAlias []);
  ((tx "cosec"), JSymbol);
  ((tx "cotg"), JSymbol);
  ((tx "injlim"), JSymbol);
  ((tx "mathclap"), JCmd {| cs_args := SRight (PFixed 1); cs_alias := None |});
  ((tx "mathring"), JCmd {| cs_args := SRight (PFixed 1); cs_alias := None |});
  ((tx "nobreak"), JSymAlias []);
  ((tx "noexpand"), JSymAlias []);
  ((tx "overgroup"), JCmd {| cs_args := SRight (PFixed 1); cs_alias := None |});
  ((tx "undergroup"), JCmd {| cs_args := SRight (PFixed 1); cs_alias := None |});
  ((tx "overleftharpoon"), JCmd {| cs_args := SRight (PFixed 1); cs_alias := None |});
  ((tx "overleftrightarrow"), JCmd {| cs_args := SRight (PFixed 1); cs_alias := None |});
  ((tx "overlinesegment"), JCmd {| cs_args := SRight (PFixed 1); cs_alias := None |});
  ((tx "overrightharpoon"), JCmd {| cs_args := SRight (PFixed 1); cs_alias := None |});
  ((tx "underbar"), JCmd {| cs_args := SRight (PFixed 1); cs_alias := None |});
  ((tx "plim"), JSymbol);
  ((tx "projlim"), JSymbol);
  ((tx "raisebox"), JCmd {| cs_args := SRight (PFixed 2); cs_alias := None |});
  ((tx "sh"), JSymbol);
  ((tx "smallint"), JSymbol);
  ((tx "thickapprox"), JSymbol);
  ((tx "thicksim"), JSymbol);
  ((tx "varDelta"), JSymbol);
  ((tx "varGamma"), JSymbol);
  ((tx "varLambda"), JSymbol);
  ((tx "varOmega"), JSymbol);
  ((tx "varPhi"), JSymbol);
  ((tx "varPi"), JSymbol);
  ((tx "varPsi"), JSymbol);
  ((tx "varSigma"), JSymbol);
  ((tx "varTheta"), JSymbol);
  ((tx "varUpsilon"), JSymbol);
  ((tx "varXi"), JSymbol);
  ((tx "xleftarrow"), JCmd {| cs_args := SRight (PFixed 1); cs_alias := None |});
  ((tx "xrightarrow"), JCmd {| cs_args := SRight (PFixed 1); cs_alias := None |});
  ((tx "xLeftarrow"), JCmd {| cs_args := SRight (PFixed 1); cs_alias := None |});
  ((tx "xRightarrow"), JCmd {| cs_args := SRight (PFixed 1); cs_alias := None |});
  ((tx "xleftrightarrow"), JCmd {| cs_args := SRight (PFixed 1); cs_alias := None |});
  ((tx "xLeftrightarrow"), JCmd {| cs_args := SRight (PFixed 1); cs_alias := None |});
  ((tx "xhookleftarrow"), JCmd {| cs_args := SRight (PFixed 1); cs_alias := None |});
  ((tx "xhookrightarrow"), JCmd {| cs_args := SRight (PFixed 1); cs_alias := None |});
  ((tx "xtwoheadleftarrow"), JCmd {| cs_args := SRight (PFixed 1); cs_alias := None |});
  ((tx "xtwoheadrightarrow"), JCmd {| cs_args := SRight (PFixed 1); cs_alias := None |});
  ((tx "xleftharpoonup"), JCmd {| cs_args := SRight (PFixed 1); cs_alias := None |});
  ((tx "xrightharpoonup"), JCmd {| cs_args := SRight (PFixed 1); cs_alias := None |});
  ((tx "xleftharpoondown"), JCmd {| cs_args := SRight (PFixed 1); cs_alias := None |});
  ((tx "xrightharpoondown"), JCmd {| cs_args := SRight (PFixed 1); cs_alias := None |});
  ((tx "xleftrightharpoons"), JCmd {| cs_args := SRight (PFixed 1); cs_alias := None |});
  ((tx "xrightleftharpoons"), JCmd {| cs_args := SRight (PFixed 1); cs_alias := None |});
  ((tx "xtofrom"), JCmd {| cs_args := SRight (PFixed 1); cs_alias := None |});
  ((tx "xmapsto"), JCmd {| cs_args := SRight (PFixed 1); cs_alias := None |});
  ((tx "xlongequal"), JCmd {| cs_args := SRight (PFixed 1); cs_alias := None |});
  ((tx "pmod"), JCmd {| cs_args := SRight (PFixed 1); cs_alias := None |});
  ((tx "pod"), JCmd {| cs_args := SRight (PFixed 1); cs_alias := None |});
  ((tx "set"), JCmd {| cs_args := SRight (PFixed 1); cs_alias := None |});
  ((tx "Set"), JCmd {| cs_args := SRight (PFixed 1); cs_alias := None |});
  ((tx "bra"), JCmd {| cs_args := SRight (PFixed 1); cs_alias := None |});
  ((tx "Bra"), JCmd {| cs_args := SRight (PFixed 1); cs_alias := None |});
  ((tx "ket"), JCmd {| cs_args := SRight (PFixed 1); cs_alias := None |});
  ((tx "Ket"), JCmd {| cs_args := SRight (PFixed 1); cs_alias := None |});
  ((tx "braket"), JCmd {| cs_args := SRight (PFixed 1); cs_alias := None |});
  ((tx "Braket"), JCmd {| cs_args := SRight (PFixed 1); cs_alias := None |});
  ((tx "fbox"), JCmd {| cs_args := SRight (PFixed 1); cs_alias := None |});
  ((tx "hbox"), JCmd {| cs_args := SRight (PFixed 1); cs_alias := None |});
  ((tx "matrix"), JEnv {| en_args := PNone; en_feature := FMatrix; en_alias := None |});
  ((tx "pmatrix"), JEnv {| en_args := PNone; en_feature := FMatrix; en_alias := None |});
  ((tx "bmatrix"), JEnv {| en_args := PNone; en_feature := FMatrix; en_alias := None |});
  ((tx "Bmatrix"), JEnv {| en_args := PNone; en_feature := FMatrix; en_alias := None |});
  ((tx "vmatrix"), JEnv {| en_args := PNone; en_feature := FMatrix; en_alias := None |});
  ((tx "Vmatrix"), JEnv {| en_args := PNone; en_feature := FMatrix; en_alias := None |});
  ((tx "smallmatrix"), JEnv {| en_args := PNone; en_feature := FMatrix; en_alias := None |});
  ((tx "array"), JEnv {| en_args := (PFixed 1); en_feature := FMatrix; en_alias := Some (tx "mitexarray") |});
  ((tx "subarray"), JEnv {| en_args := (PFixed 1); en_feature := FMatrix; en_alias := Some (tx "mitexarray") |});
  ((tx "aligned"), JEnv {| en_args := PNone; en_feature := FMath; en_alias := Some (tx "aligned") |});
  ((tx "alignedat"), JEnv {| en_args := (PFixed 1); en_feature := FMath; en_alias := Some (tx "alignedat") |});
  ((tx "align"), JEnv {| en_args := PNone; en_feature := FMath; en_alias := Some (tx "aligned") |});
  ((tx "align*"), JEnv {| en_args := PNone; en_feature := FMath; en_alias := Some (tx "aligned") |});
  ((tx "equation"), JEnv {| en_args := PNone; en_feature := FMath; en_alias := Some (tx "aligned") |});
  ((tx "equation*"), JEnv {| en_args := PNone; en_feature := FMath; en_alias := Some (tx "aligned") |});
  ((tx "split"), JEnv {| en_args := PNone; en_feature := FMath; en_alias := Some (tx "aligned") |});
  ((tx "gather"), JEnv {| en_args := PNone; en_feature := FMath; en_alias := Some (tx "aligned") |});
  ((tx "gather*"), JEnv {| en_args := PNone; en_feature := FMath; en_alias := Some (tx "aligned") |});
  ((tx "gathered"), JEnv {| en_args := PNone; en_feature := FMath; en_alias := Some (tx "aligned") |});
  ((tx "cases"), JEnv {| en_args := PNone; en_feature := FCases; en_alias := Some (tx "cases") |});
  ((tx "rcases"), JEnv {| en_args := PNone; en_feature := FCases; en_alias := Some (tx "rcases") |});
  ((tx "notag"), JSymAlias []);
  ((tx "relax"), JSymAlias []);
  ((tx "cr"), JSymAlias []);
  ((tx "expandafter"), JSymAlias []);
  ((tx "hskip"), JSymAlias []);
  ((tx "mskip"), JSymAlias []);
  ((tx "kern"), JSymAlias []);
  ((tx "mkern"), JSymAlias []);
  ((tx "mathstrut"), JSymAlias []);
  ((tx "nonumber"), JSymAlias []);
  ((tx "KaTeX"), JSymbol);
  ((tx "LaTeX"), JSymbol);
  ((tx "TeX"), JSymbol);
  ((tx "middle"), JCmd {| cs_args := SRight (PFixed 1); cs_alias := None |});
  ((tx "operatorname"), JCmd {| cs_args := SRight (PFixed 1); cs_alias := None |});
  ((tx "operatornamewithlimits"), JCmd {| cs_args := SRight (PFixed 1); cs_alias := Some (tx "operatornamewithlimits") |});
  ((tx "operatorname*"), JCmd {| cs_args := SRight (PFixed 1); cs_alias := Some (tx "operatornamewithlimits") |});
  ((tx "vspace"), JCmd {| cs_args := SRight (PFixed 1); cs_alias := None |});
  ((tx "hspace"), JCmd {| cs_args := SRight (PFixed 1); cs_alias := None |});
  ((tx "text"), JCmd {| cs_args := SRight (PFixed 1); cs_alias := Some (tx "#textmath") |});
  ((tx "textmd"), JCmd {| cs_args := SRight (PFixed 1); cs_alias := Some (tx "#textmd") |});
  ((tx "textnormal"), JCmd {| cs_args := SRight (PFixed 1); cs_alias := Some (tx "#textnormal") |});
  ((tx "textbf"), JCmd {| cs_args := SRight (PFixed 1); cs_alias := Some (tx "#textbf") |});
  ((tx "textit"), JCmd {| cs_args := SRight (PFixed 1); cs_alias := Some (tx "#textit") |});
  ((tx "textrm"), JCmd {| cs_args := SRight (PFixed 1); cs_alias := Some (tx "#textrm") |});
  ((tx "textup"), JCmd {| cs_args := SRight (PFixed 1); cs_alias := Some (tx "#textup") |});
  ((tx "textsf"), JCmd {| cs_args := SRight (PFixed 1); cs_alias := Some (tx "#textsf") |});
  ((tx "texttt"), JCmd {| cs_args := SRight (PFixed 1); cs_alias := Some (tx "#texttt") |});
  ((tx "over"), JCmdInfix (tx "frac"));
  ((tx "atop"), JCmdInfix (tx "atop"));
  ((tx "choose"), JCmdInfix (tx "binom"));
  ((tx "brace"), JCmdInfix (tx "brace"));
  ((tx "brack"), JCmdInfix (tx "brack"));
  ((tx "sqrt"), JCmdGlob (tx "{,b}t") (tx "mitexsqrt"));
  ((tx "def"), JSymAlias []);
  ((tx "newcommand"), JSymAlias []);
  ((tx "newcommand*"), JSymAlias []);
  ((tx "renewcommand"), JSymAlias []);
  ((tx "renewcommand*"), JSymAlias []);
  ((tx "DeclareRobustCommand"), JSymAlias []);
  ((tx "DeclareRobustCommand*"), JSymAlias []);
  ((tx "DeclareTextCommand"), JSymAlias []);
  ((tx "DeclareTextCommandDefault"), JSymAlias []);
  ((tx "ProvideTextCommand"), JSymAlias []);
  ((tx "ProvideTextCommandDefault"), JSymAlias []);
  ((tx "providecommand"), JSymAlias []);
  ((tx "providecommand*"), JSymAlias []);
  ((tx "newenvironment"), JSymAlias []);
  ((tx "newenvironment*"), JSymAlias []);
  ((tx "renewenvironment"), JSymAlias []);
  ((tx "renewenvironment*"), JSymAlias []);
  ((tx "AtEndOfClass"), JSymAlias []);
  ((tx "AtEndOfPackage"), JSymAlias []);
  ((tx "AtBeginDocument"), JSymAlias []);
  ((tx "AtEndDocument"), JSymAlias []);
  ((tx "@ifstar"), JSymAlias []);
  ((tx "if"), JSymAlias []);
  ((tx "ifdim"), JSymAlias []);
  ((tx "iffalse"), JSymAlias []);
  ((tx "ifnum"), JSymAlias []);
  ((tx "ifodd"), JSymAlias []);
  ((tx "iftrue"), JSymAlias []);
  ((tx "ifx"), JSymAlias []);
  ((tx "DeclareOption"), JSymAlias []);
  ((tx "DeclareOption*"), JSymAlias []);
  ((tx "CurrentOption"), JSymAlias []);
  ((tx "ProcessOptions"), JSymAlias []);
  ((tx "ExecuteOptions"), JSymAlias []);
  ((tx "RequirePackage"), JSymAlias []);
  ((tx "RequirePackageWithOptions"), JSymAlias []);
  ((tx "documentclass"), JSymAlias []);
  ((tx "PassOptionsToClass"), JSymAlias []);
  ((tx "PassOptionsToPackage"), JSymAlias []);
  ((tx "IfFileExists"), JSymAlias []);
  ((tx "InputIfFileExists"), JSymAlias []);
  ((tx "ProvidesFile"), JSymAlias []);
  ((tx "ignorespaces"), JSymAlias []);
  ((tx "ignorespacesafterend"), JSymAlias []);
  ((tx "ifvoid"), JSymAlias []);
  ((tx "ifinner"), JSymAlias []);
  ((tx "ifhbox"), JSymAlias []);
  ((tx "ifvbox"), JSymAlias []);
  ((tx "ifhmode"), JSymAlias []);
  ((tx "ifmmode"), JSymAlias []);
  ((tx "ifvmode"), JSymAlias []);
  ((tx "CheckCommand"), JSymAlias []);
  ((tx "CheckCommand*"), JSymAlias []);
  ((tx "newcounter"), JSymAlias []);
  ((tx "newlength"), JSymAlias []);
  ((tx "newsavebox"), JSymAlias []);
  ((tx "newtheorem"), JSymAlias []);
  ((tx "newfont"), JSymAlias []);
  ((tx "ProvidesClass"), JSymAlias []);
  ((tx "LoadClass"), JSymAlias []);
  ((tx "LoadClassWithOptions"), JSymAlias [])
].
(** lib.rs of mitex-spec-gen:11-16 [DEFAULT_SPEC], generated by build.rs:118-134 *)
Definition default_items : list (text * spec_item) :=
  Eval vm_compute in spec_of_json (merge_packages [standard_package]).
Definition DEFAULT_SPEC : spec := spec_of default_items.
