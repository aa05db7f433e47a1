(** GENERATED by tools/gen_conformance.py: the snapshot tests of the repository
    (crates/mitex/tests, crates/mitex-parser/tests/ast, crates/mitex-lexer/tests)
    run on the model.  Tests of the model, not proofs. *)
From Verif Require Import Api.
Local Open Scope N_scope.

Definition F : nat := 4000.
Fixpoint drop_nl (s : text) : text := match s with 10 :: r => drop_nl r | _ => s end.
Definition norm (s : text) : text := trim_end (drop_nl s).
Definition check_ok (r : cres text) (e : text) : bool :=
  match r with COk o => teqb (norm o) (norm e) | _ => false end.
Definition check_err (r : cres text) : bool := match r with CErr _ => true | _ => false end.
Fixpoint trunc_at (fuel n : nat) (s : text) : text :=
  match fuel with
  | O => s
  | S f => match split_bytes n s with Some (a, _) => a ++ tx ".." | None => trunc_at f (S n) s end
  end.
Definition snap (s : text) : text := if Nat.ltb (blen s) 25 then s else trunc_at 4 21 s.
Fixpoint tree_snap (a b : tree) : bool :=
  match a, b with
  | Leaf k s, Leaf k' s' => kind_eqb k k' && teqb (snap s) s'
  | Node k c, Node k' c' =>
    kind_eqb k k' &&
    (fix go l l' := match l, l' with
                    | [], [] => true
                    | x :: r, y :: r' => tree_snap x y && go r r'
                    | _, _ => false end) c c'
  | _, _ => false
  end.
Definition check_tree (s : text) (e : tree) : bool :=
  match parse_macro F PAGE DEFAULT_SPEC s with Ok t => tree_snap t e | _ => false end.
Fixpoint toks_eqb (a b : list tok) : bool :=
  match a, b with
  | [], [] => true
  | (k, s) :: a', (k', s') :: b' => token_eqb k k' && teqb s s' && toks_eqb a' b'
  | _, _ => false
  end.
Definition check_toks (s : text) (e : list tok) : bool :=
  match expand_all F PAGE engine_new DEFAULT_SPEC s with Ok l => toks_eqb l e | _ => false end.

Definition conversions : list bool := [
  check_ok (convert_math F PAGE (tx "\frac{ a }{ b }") None) (tx "frac( a  , b  )");
  check_ok (convert_math F PAGE (tx "$u^" ++ [8722] ++ tx "$") None) (tx "u ^(" ++ [8722] ++ tx " )");
  check_ok (convert_math F PAGE (tx "\frac 1 2 _3") None) (tx "frac(1 ,2 ) _(3 )");
  check_ok (convert_math F PAGE (tx "\int_1^2 x \mathrm{d} x") None) (tx "integral _(1 )^(2 ) x  upright(d ) x");
  check_ok (convert_math F PAGE (tx "\alpha_1") None) (tx "alpha _(1 )");
  check_ok (convert_math F PAGE (tx "a \textbf{strong} text") None) (tx "a  #textbf[strong]; t e x t");
  check_ok (convert_math F PAGE (tx "x \color {red} yz \frac{1}{2}") None) (tx "x  #mitexcolor(none, [red])[$ $$y z  $$frac(1 ,2 )$]");
  check_ok (convert_math F PAGE (tx "\frac abcd") None) (tx "frac(a ,b )c d");
  check_ok (convert_math F PAGE (tx "\frac ab") None) (tx "frac(a ,b )");
  check_ok (convert_math F PAGE (tx "\frac a") None) (tx "frac(a )");
  check_ok (convert_math F PAGE (tx "\mathrm(x)") None) (tx "upright(\()x \)");
  check_ok (convert_math F PAGE (tx "\mathrm[x]") None) (tx "upright(\[)x \]");
  check_ok (convert_math F PAGE (tx "\mathrm\lbrace x \rbrace") None) (tx "upright(\{ ) x  \}");
  check_ok (convert_math F PAGE (tx "\begin{matrix}" ++ [10] ++ tx "        \displaystyle 1 & 2 \\" ++ [10] ++ tx "        3 & 4 \\" ++ [10] ++ tx "    \end{matrix}") None) (tx "matrix(" ++ [10] ++ tx "mitexdisplay( 1  )zws , 2  zws ;" ++ [10] ++ tx "3  zws , 4  zws ;" ++ [10] ++ tx ")");
  check_ok (convert_math F PAGE (tx "\begin{matrix}" ++ [10] ++ tx "        \displaystyle 1 \\" ++ [10] ++ tx "        3 \\" ++ [10] ++ tx "    \end{matrix}") None) (tx "matrix(" ++ [10] ++ tx "mitexdisplay( 1  )zws ;" ++ [10] ++ tx "3  zws ;" ++ [10] ++ tx ")");
  check_ok (convert_math F PAGE (tx "\begin{matrix}\frac{1} & {2}\end{matrix}") None) (tx "matrix(frac(1 ) zws , 2 )");
  check_ok (convert_math F PAGE (tx "\begin{matrix}\frac{1} \\ {2}\end{matrix}") None) (tx "matrix(frac(1 ,zws ;) 2 )");
  check_ok (convert_math F PAGE (tx "1 \over 2 \\ 3 ") None) (tx "frac(1  , 2  \  3  )");
  check_ok (convert_math F PAGE (tx "\displaystyle \frac{1}{2} \\ \frac{1}{2}") None) (tx "mitexdisplay( frac(1 ,2 ) \  frac(1 ,2 ))");
  check_ok (convert_math F PAGE (tx "\left. \displaystyle \frac{1}{2} \\ \frac{1}{2} \right.") None) (tx "lr(  mitexdisplay( frac(1 ,2 ) \  frac(1 ,2 ) ) )");
  check_ok (convert_math F PAGE (tx "\sqrt[\displaystyle \frac{1}{2} \\ \frac{1}{2} ]{}") None) (tx "mitexsqrt(\[mitexdisplay( frac(1 ,2 ) \  frac(1 ,2 ) )\],zws )");
  check_ok (convert_math F PAGE (tx "\begin{matrix}a \over b \\ c\end{matrix}") None) (tx "matrix(frac(a  , b  )zws ; c )");
  check_ok (convert_math F PAGE (tx "\sqrt 12") None) (tx "mitexsqrt(1 )2");
  check_ok (convert_math F PAGE (tx "\sqrt{1}2") None) (tx "mitexsqrt(1 )2");
  check_ok (convert_math F PAGE (tx "\sqrt[1]") None) (tx "mitexsqrt(\[1 \])");
  check_ok (convert_math F PAGE (tx "\sqrt[1]{2}") None) (tx "mitexsqrt(\[1 \],2 )");
  check_ok (convert_math F PAGE (tx "\sqrt[1]{2}3") None) (tx "mitexsqrt(\[1 \],2 )3");
  check_ok (convert_math F PAGE (tx "$\text{${1}$}$") None) (tx "#textmath[#math.equation(block: false, $1 $);];");
  check_ok (convert_math F PAGE (tx "$\frac{${1}$}{${2}$}$") None) (tx "frac(1 ,2 )");
  check_ok (convert_math F PAGE (tx "_1^2") None) (tx "zws_(1 )zws^(2 )");
  check_ok (convert_math F PAGE (tx "{}_{1}^2") None) (tx "zws _(1 )^(2 )");
  check_ok (convert_math F PAGE (tx "\alpha_1") None) (tx "alpha _(1 )");
  check_ok (convert_math F PAGE (tx "\alpha_[1]") None) (tx "alpha _(\[)1 \]");
  check_ok (convert_math F PAGE (tx "\alpha_(1)") None) (tx "alpha _(\()1 \)");
  check_ok (convert_math F PAGE (tx "_1") None) (tx "zws_(1 )");
  check_ok (convert_math F PAGE (tx "\over_1") None) (tx "frac(,zws_(1 ))");
  check_ok (convert_math F PAGE (tx "{}_1") None) (tx "zws _(1 )");
  check_ok (convert_math F PAGE (tx "{}_1_1") None) (tx "zws _(1 )_(1 )");
  check_ok (convert_math F PAGE (tx "\frac{1}{2}_{3}") None) (tx "frac(1 ,2 )_(3 )");
  check_ok (convert_math F PAGE (tx "\overbrace{a + b + c}^{\text{This is an overbrace}}") None) (tx "mitexoverbrace(a  +  b  +  c )^(#textmath[This is an overbrace];)");
  check_ok (convert_math F PAGE (tx "\underbrace{x \times y}_{\text{This is an underbrace}}") None) (tx "mitexunderbrace(x  times  y )_(#textmath[This is an underbrace];)");
  check_ok (convert_math F PAGE (tx "x_1''^2") None) (tx "x _(1 )''^(2 )");
  check_ok (convert_math F PAGE (tx "x''_1") None) (tx "x ''_(1 )");
  check_ok (convert_math F PAGE (tx "''") None) (tx "''");
  check_ok (convert_math F PAGE (tx "\frac''") None) (tx "frac(',')");
  check_ok (convert_math F PAGE (tx "\frac ab_c") None) (tx "frac(a ,b )_(c )");
  check_ok (convert_math F PAGE (tx "\frac a_c b") None) (tx "frac(a )_(c ) b");
  check_ok (convert_math F PAGE (tx "\frac {a_c} b") None) (tx "frac(a _(c ),b )");
  check_ok (convert_text F PAGE (tx "abc") None) (tx "abc");
  check_ok (convert_text F PAGE (tx "\section{Title}") None) (tx "#heading(level: 1)[Title];");
  check_ok (convert_text F PAGE (tx "a \textbf{strong} text") None) (tx "a #strong[strong]; text");
  check_ok (convert_text F PAGE (tx "\section{Title}" ++ [10] ++ [10] ++ tx "    A \textbf{strong} text, a \emph{emph} text and inline equation $x + y$." ++ [10] ++ tx "    " ++ [10] ++ tx "    Also block \eqref{eq:pythagoras}." ++ [10] ++ tx "  " ++ [10] ++ tx "    \begin{equation}" ++ [10] ++ tx "      a^2 + b^2 = c^2 \label{eq:pythagoras}" ++ [10] ++ tx "    \end{equation}") None) (tx "#heading(level: 1)[Title];" ++ [10] ++ [10] ++ tx "A #strong[strong]; text\, a #emph[emph]; text and inline equation #math.equation(block: false, $x  +  y $);." ++ [10] ++ [10] ++ tx "Also block #mitexref[eq:pythagoras];." ++ [10] ++ [10] ++ tx "$ aligned(" ++ [10] ++ tx "a ^(2 ) +  b ^(2 ) =  c ^(2 ) " ++ [10] ++ tx ") $<eq:pythagoras>");
  check_ok (convert_text F PAGE (tx "\iffalse Test\fi") None) [];
  check_ok (convert_text F PAGE (tx "\iffalse Test\else \LaTeX\fi") None) (tx " LaTeX");
  check_ok (convert_text F PAGE (tx "\iffalse Test\ifhbox Commented HBox\fi\fi") None) [];
  check_ok (convert_math F PAGE (tx "\operatorname*{a}") None) (tx "operatornamewithlimits(a )");
  check_ok (convert_math F PAGE (tx "\varphi*1") None) (tx "phi \*1");
  check_ok (convert_math F PAGE (tx "\sum") None) (tx "sum");
  check_ok (convert_math F PAGE (tx "\sum\limits") None) (tx "limits(sum )");
  check_ok (convert_math F PAGE (tx "\sum \limits") None) (tx "limits(sum  )");
  check_ok (convert_math F PAGE (tx "\sum\limits\limits") None) (tx "limits(limits(sum ))");
  check_ok (convert_math F PAGE (tx "\sum\limits\sum") None) (tx "limits(sum )sum");
  check_ok (convert_math F PAGE (tx "\sum\limits\sum\limits") None) (tx "limits(sum )limits(sum )");
  check_ok (convert_math F PAGE (tx "\limits") None) (tx "limits()");
  check_ok (convert_math F PAGE (tx "1 \over \displaystyle 2") None) (tx "frac(1  , mitexdisplay( 2 ))");
  check_ok (convert_math F PAGE (tx "\displaystyle \displaystyle 1 \over 2") None) (tx "mitexdisplay( mitexdisplay(frac( 1  , 2 )))");
  check_ok (convert_math F PAGE (tx "\displaystyle 1 \over 2") None) (tx "mitexdisplay(frac( 1  , 2 ))");
  check_ok (convert_math F PAGE (tx "a \over c \over b") None) (tx "frac(a  ,frac( c  , b ))");
  check_ok (convert_math F PAGE (tx "\displaystyle") None) (tx "mitexdisplay()");
  check_ok (convert_math F PAGE (tx "\displaystyle\sum\limits") None) (tx "mitexdisplay(limits(sum ))");
  check_ok (convert_math F PAGE (tx "\displaystyle x_1") None) (tx "mitexdisplay( x _(1 ))");
  check_ok (convert_math F PAGE (tx "\displaystyle x'") None) (tx "mitexdisplay( x ')");
  check_ok (convert_math F PAGE (tx "\displaystyle\limits") None) (tx "mitexdisplay(limits())");
  check_ok (convert_math F PAGE (tx "\displaystyle_1") None) (tx "mitexdisplay(zws_(1 ))");
  check_ok (convert_math F PAGE (tx "\displaystyle'") None) (tx "mitexdisplay(')");
  check_ok (convert_math F PAGE (tx "\displaystyle a b c") None) (tx "mitexdisplay( a  b  c )");
  check_ok (convert_math F PAGE (tx "\displaystyle \sum T") None) (tx "mitexdisplay( sum  T )");
  check_ok (convert_math F PAGE (tx "\displaystyle{\sum T}") None) (tx "mitexdisplay(sum  T )");
  check_ok (convert_math F PAGE (tx "\displaystyle[\sum T]") None) (tx "mitexdisplay(\[sum  T \])");
  check_ok (convert_math F PAGE (tx "a + {\displaystyle a b} c") None) (tx "a  +  mitexdisplay( a  b ) c");
  check_ok (convert_math F PAGE (tx "T \displaystyle") None) (tx "T  mitexdisplay()");
  check_ok (convert_math F PAGE (tx "\over_1") None) (tx "frac(,zws_(1 ))");
  check_ok (convert_math F PAGE (tx "\over'") None) (tx "frac(,')");
  check_ok (convert_math F PAGE (tx "a \over b'_1") None) (tx "frac(a  , b '_(1 ))");
  check_ok (convert_math F PAGE (tx "a \over b") None) (tx "frac(a  , b )");
  check_ok (convert_math F PAGE (tx "1 + {2 \over 3}") None) (tx "1  +  frac(2  , 3 )");
  check_ok (convert_text F PAGE (tx "\begin{equation}\end{equation}") None) (tx "$ aligned() $");
  check_ok (convert_math F PAGE (tx "\begin{equation}\end{equation}") None) (tx "aligned()");
  check_ok (convert_math F PAGE (tx "\begin{matrix}" ++ [10] ++ tx "a & b \\" ++ [10] ++ tx "c & d" ++ [10] ++ tx "\end{matrix}") None) (tx "matrix(" ++ [10] ++ tx "a  zws , b  zws ;" ++ [10] ++ tx "c  zws , d " ++ [10] ++ tx ")");
  check_ok (convert_math F PAGE (tx "\begin{pmatrix}\\\end{pmatrix}") None) (tx "pmatrix(zws ;)");
  check_ok (convert_math F PAGE (tx "\begin{pmatrix}x{\\}x\end{pmatrix}") None) (tx "pmatrix(x x )");
  check_ok (convert_math F PAGE (tx "\begin{array}{lc}" ++ [10] ++ tx "a & b \\" ++ [10] ++ tx "c & d" ++ [10] ++ tx "\end{array}") None) (tx "mitexarray(arg0: l c ," ++ [10] ++ tx "a  zws , b  zws ;" ++ [10] ++ tx "c  zws , d " ++ [10] ++ tx ")");
  check_ok (convert_math F PAGE (tx "\begin{bmatrix}A&B\end{bmatrix}") None) (tx "bmatrix(A zws ,B )");
  check_ok (convert_text F PAGE (tx "\begin{figure}[ht]" ++ [10] ++ tx "        \centering" ++ [10] ++ tx "        \includegraphics[width=0.5\textwidth, height=3cm, angle=45]{example-image.png}" ++ [10] ++ tx "        \caption{This is an example image.}" ++ [10] ++ tx "        \label{fig:example}" ++ [10] ++ tx "    \end{figure}") None) (tx "#figure(caption: [This is an example image.],)[" ++ [10] ++ [10] ++ tx "#image(width: 0.5 * 100%, height: 3cm, ""example-image.png"")" ++ [10] ++ [10] ++ [10] ++ tx "];<fig:example>");
  check_ok (convert_text F PAGE (tx "\begin{table}[ht]" ++ [10] ++ tx "        \centering" ++ [10] ++ tx "        \begin{tabular}{|c|c|}" ++ [10] ++ tx "            \hline" ++ [10] ++ tx "            \textbf{Name} & \textbf{Age} \\" ++ [10] ++ tx "            \hline" ++ [10] ++ tx "            John & 25 \\" ++ [10] ++ tx "            Jane & 22 \\" ++ [10] ++ tx "            \hline" ++ [10] ++ tx "        \end{tabular}" ++ [10] ++ tx "        \caption{This is an example table.}" ++ [10] ++ tx "        \label{tab:example}" ++ [10] ++ tx "    \end{table}") None) (tx "#figure(caption: [This is an example table.],)[" ++ [10] ++ [10] ++ tx "#table(stroke: none," ++ [10] ++ tx "columns: 2," ++ [10] ++ tx "align: (center, center, )," ++ [10] ++ tx "table.vline(stroke: .5pt, x: 0), table.vline(stroke: .5pt, x: 1), table.vline(stroke: .5pt, x: 2), " ++ [10] ++ tx "table.hline(stroke: .5pt)," ++ [10] ++ tx "[#strong[Name]; ], [#strong[Age]; ]," ++ [10] ++ tx "table.hline(stroke: .5pt)," ++ [10] ++ tx "[John ], [25 ]," ++ [10] ++ tx "[Jane ], [22 ]," ++ [10] ++ tx "table.hline(stroke: .5pt)," ++ [10] ++ tx ");" ++ [10] ++ [10] ++ [10] ++ tx "];<tab:example>");
  check_ok (convert_text F PAGE (tx "\[\]") None) (tx "$  $");
  check_ok (convert_text F PAGE (tx "\[\[\]\]") None) (tx "$  $");
  check_ok (convert_text F PAGE (tx "\[\(\)\]") None) (tx "$  $");
  check_err (convert_text F PAGE (tx "\[\)\(\]") None);
  check_ok (convert_text F PAGE (tx "$[)$ test") None) (tx "#math.equation(block: false, $\[\)$); test");
  check_err (convert_text F PAGE (tx "${$}") None);
  check_ok (convert_text F PAGE (tx "{$}$") None) (tx "#math.equation(block: false, $$);#math.equation(block: false, $$);");
  check_ok (convert_text F PAGE (tx "\begin{array}$\end{array}$") None) (tx "$ mitexarray(arg0: ,) $#math.equation(block: false, $$);");
  check_err (convert_text F PAGE (tx "$\begin{array}$\end{array}") None);
  check_err (convert_math F PAGE (tx "\left\0") None);
  check_err (convert_math F PAGE (tx "\end{}") None);
  check_ok (convert_math F PAGE (tx "\left.\right.") None) (tx "lr(  )");
  check_ok (convert_math F PAGE (tx "\left.a\right.") None) (tx "lr( a  )");
  check_ok (convert_math F PAGE (tx "\left.    \right] ,") None) (tx "lr(     \] ) \,");
  check_ok (convert_math F PAGE (tx "\left  . a \right    \|") None) (tx "lr(     a       || )");
  check_ok (convert_math F PAGE (tx "\left\langle a\right\|") None) (tx "lr(chevron.l  a || )");
  check_err (convert_math F PAGE (tx "\left{.}a\right{.}") None);
  check_ok (convert_math F PAGE (tx "\begin{equation}\left.\right\end{equation}") None) (tx "aligned(lr( ))");
  check_ok (convert_math F PAGE (tx "\begin{equation}\left\right\end{equation}") None) (tx "aligned(lr())");
  check_ok (convert_math F PAGE (tx "$abc$") None) (tx "a b c");
  check_ok (convert_math F PAGE (tx "$\alpha x$") None) (tx "alpha  x");
  check_ok (convert_math F PAGE (tx "$\int_1^2 x \mathrm{d} x$") None) (tx "integral _(1 )^(2 ) x  upright(d ) x");
  check_ok (convert_math F PAGE (tx "$\underline{T}$") None) (tx "underline(T )");
  check_ok (convert_math F PAGE (tx "$\frac{a}{b}$") None) (tx "frac(a ,b )");
  check_ok (convert_math F PAGE (tx "$\frac 12_3$") None) (tx "frac(1 ,2 )_(3 )");
  check_ok (convert_math F PAGE (tx "$\displaystyle xyz\frac{1}{2}$") None) (tx "mitexdisplay( x y z frac(1 ,2 ))");
  check_ok (convert_math F PAGE (tx "$1 + {\displaystyle 23} + 4$") None) (tx "1  +  mitexdisplay( 2 3 ) +  4");
  check_ok (convert_math F PAGE (tx "$\sum\limits_1^2$") None) (tx "limits(sum )_(1 )^(2 )");
  check_ok (convert_math F PAGE (tx "$x_1^2$") None) (tx "x _(1 )^(2 )");
  check_ok (convert_math F PAGE (tx "$x^2_1$") None) (tx "x ^(2 )_(1 )");
  check_ok (convert_math F PAGE (tx "$x''_1$") None) (tx "x ''_(1 )");
  check_ok (convert_math F PAGE (tx "$\overbrace{a + b + c}^{\text{This is an overbrace}}$") None) (tx "mitexoverbrace(a  +  b  +  c )^(#textmath[This is an overbrace];)");
  check_ok (convert_math F PAGE (tx "$x_1''$") None) (tx "x _(1 )''");
  check_ok (convert_math F PAGE (tx "${}_1^2x_3^4$") None) (tx "zws _(1 )^(2 )x _(3 )^(4 )");
  check_ok (convert_math F PAGE (tx "$_1^2$") None) (tx "zws_(1 )zws^(2 )");
  check_ok (convert_math F PAGE (tx "$\frac{_1^2}{3}$") None) (tx "frac(zws_(1 )zws^(2 ),3 )");
  check_ok (convert_math F PAGE (tx "$x + 1 \over y + 2$") None) (tx "frac(x  +  1  , y  +  2 )");
  check_ok (convert_math F PAGE (tx "$1 + {2 \over 3}$") None) (tx "1  +  frac(2  , 3 )");
  check_ok (convert_math F PAGE (tx "${l \over 2'}$") None) (tx "frac(l  , 2 ')");
  check_ok (convert_math F PAGE (tx "$x / y$") None) (tx "x  \/ y");
  check_ok (convert_math F PAGE (tx "$x~\! \, \> \: \; \ \quad \qquad y$") None) (tx "x space.nobreak negthinspace  thin  med  med  thick  thick  quad  wide  y");
  check_ok (convert_math F PAGE (tx "$\|x\|| \& \# \% \$ y$") None) (tx "|| x || |  amp  hash  %  dollar  y");
  check_ok (convert_math F PAGE (tx "$a*b * c$") None) (tx "a \*b  \* c");
  check_ok (convert_math F PAGE (tx "$""$") None) (tx "\""");
  check_ok (convert_text F PAGE (tx "@abc") None) (tx "\@abc");
  check_ok (convert_math F PAGE (tx "$u^" ++ [8722] ++ tx "$") None) (tx "u ^(" ++ [8722] ++ tx " )");
  check_ok (convert_math F PAGE (tx "$\sqrt 1$") None) (tx "mitexsqrt(1 )");
  check_ok (convert_math F PAGE (tx "$\sqrt [1]2$") None) (tx "mitexsqrt(\[1 \],2 )");
  check_ok (convert_math F PAGE (tx "$\left.\right.$") None) (tx "lr(  )");
  check_ok (convert_math F PAGE (tx "$\left.a\right.$") None) (tx "lr( a  )");
  check_ok (convert_math F PAGE (tx "$\alpha\left.\right.$") None) (tx "alpha lr(  )");
  check_ok (convert_math F PAGE (tx "$\left  . a \right    \|$") None) (tx "lr(     a       || )");
  check_ok (convert_math F PAGE (tx "$\left\langle a\right\|$") None) (tx "lr(chevron.l  a || )");
  check_ok (convert_math F PAGE (tx "$\left\lbrack\lbrack x\rbrack\right\rbrack$") None) (tx "lr(bracket.l bracket.l  x bracket.r bracket.r )");
  check_ok (convert_math F PAGE (tx "$x\color{red}yz\frac{1}{2}$") None) (tx "x #mitexcolor(none, [red])[$y z $$frac(1 ,2 )$]");
  check_ok (convert_math F PAGE (tx "$x\textcolor{red}yz$") None) (tx "x #colortext(none, [red])[$y $]z");
  check_ok (convert_math F PAGE (tx "$x\textcolor{red}{yz}$") None) (tx "x #colortext(none, [red])[$y z $]");
  check_ok (convert_math F PAGE (tx "$x\colorbox{red}yz$") None) (tx "x #mitexcolorbox(none, [red])[$y $]z");
  check_ok (convert_math F PAGE (tx "$x\colorbox{red}{yz}$") None) (tx "x #mitexcolorbox(none, [red])[$y z $]");
  check_ok (convert_math F PAGE (tx "$\begin{pmatrix}x{\\}x\end{pmatrix}$") None) (tx "pmatrix(x x )");
  check_ok (convert_math F PAGE (tx "$\begin{pmatrix} \\ & \ddots \end{pmatrix}$") None) (tx "pmatrix( zws ; zws , dots.down  )");
  check_ok (convert_math F PAGE (tx "$\begin{matrix}" ++ [10] ++ tx "    1 & 2 & 3\\" ++ [10] ++ tx "a & b & c" ++ [10] ++ tx "\end{matrix}$") None) (tx "matrix(" ++ [10] ++ tx "1  zws , 2  zws , 3 zws ;" ++ [10] ++ tx "a  zws , b  zws , c " ++ [10] ++ tx ")");
  check_ok (convert_math F PAGE (tx "$\begin{Vmatrix}" ++ [10] ++ tx "    1 & 2 & 3\\" ++ [10] ++ tx "a & b & c" ++ [10] ++ tx "\end{Vmatrix}$") None) (tx "Vmatrix(" ++ [10] ++ tx "1  zws , 2  zws , 3 zws ;" ++ [10] ++ tx "a  zws , b  zws , c " ++ [10] ++ tx ")");
  check_ok (convert_math F PAGE (tx "$\begin{array}{lcr}" ++ [10] ++ tx "    1 & 2 & 3\\" ++ [10] ++ tx "a & b & c" ++ [10] ++ tx "\end{array}$") None) (tx "mitexarray(arg0: l c r ," ++ [10] ++ tx "1  zws , 2  zws , 3 zws ;" ++ [10] ++ tx "a  zws , b  zws , c " ++ [10] ++ tx ")");
  check_ok (convert_math F PAGE (tx "$\begin{aligned}" ++ [10] ++ tx "    1 & 2 & 3\\" ++ [10] ++ tx "a & b & c" ++ [10] ++ tx "\end{aligned}$") None) (tx "aligned(" ++ [10] ++ tx "1  & 2  & 3 \ " ++ [10] ++ tx "a  & b  & c " ++ [10] ++ tx ")");
  check_ok (convert_math F PAGE (tx "$\begin{align*}" ++ [10] ++ tx "    1 & 2 & 3\\" ++ [10] ++ tx "a & b & c" ++ [10] ++ tx "\end{align*}$") None) (tx "aligned(" ++ [10] ++ tx "1  & 2  & 3 \ " ++ [10] ++ tx "a  & b  & c " ++ [10] ++ tx ")");
  check_ok (convert_math F PAGE (tx "$\begin{cases}" ++ [10] ++ tx "    1 & 2 & 3\\" ++ [10] ++ tx "a & b & c" ++ [10] ++ tx "\end{cases}$") None) (tx "cases(" ++ [10] ++ tx "1  & 2  & 3 ," ++ [10] ++ tx "a  & b  & c " ++ [10] ++ tx ")");
  check_ok (convert_math F PAGE (tx "$""$") None) (tx "\""");
  check_ok (convert_math F PAGE (tx "$a""b""c$") None) (tx "a \""b \""c");
  check_ok (convert_math F PAGE (tx "$\text{a""b""c}$") None) (tx "#textmath[a\""b\""c];");
  check_ok (convert_math F PAGE (tx "$\text{a "" b "" c}$") None) (tx "#textmath[a \"" b \"" c];");
  check_ok (convert_math F PAGE (tx "$\text{abc}$") None) (tx "#textmath[abc];");
  check_ok (convert_math F PAGE (tx "$\text{ a b c }$") None) (tx "#textmath[ a b c ];");
  check_ok (convert_math F PAGE (tx "$\text{abc{}}$") None) (tx "#textmath[abc];");
  check_ok (convert_math F PAGE (tx "$\text{ab{}c}$") None) (tx "#textmath[abc];");
  check_ok (convert_math F PAGE (tx "$\text{ab c}$") None) (tx "#textmath[ab c];");
  check_ok (convert_math F PAGE (tx "$\text{ab$x$c}$") None) (tx "#textmath[ab#math.equation(block: false, $x $);c];");
  check_ok (convert_math F PAGE (tx "$\text{ab*c}$") None) (tx "#textmath[ab\*c];");
  check_ok (convert_math F PAGE (tx "$\text{ab_c}$") None) (tx "#textmath[ab\_c];");
  check_ok (convert_math F PAGE (tx "$\text{ab^c}$") None) (tx "#textmath[ab\^c];");
  check_ok (convert_math F PAGE (tx "$\text{ab\color{red}c}$") None) (tx "#textmath[ab#mitexcolor(none, [red])[c];];");
  check_ok (convert_math F PAGE (tx "\iftypst#show: template\fi") None) (tx "#show: template");
  check_ok (convert_math F PAGE (tx "\iftypst#import ""template.typ"": project" ++ [10] ++ tx "#show: project\fi") None) (tx "#import ""template.typ"": project" ++ [10] ++ tx "#show: project");
  check_ok (convert_text F PAGE (tx "$a$") None) (tx "#math.equation(block: false, $a $);");
  check_ok (convert_text F PAGE (tx "$$a$$") None) (tx "$ a  $");
  check_ok (convert_text F PAGE (tx "\(a\)") None) (tx "#math.equation(block: false, $a $);");
  check_ok (convert_text F PAGE (tx "\[a\]") None) (tx "$ a  $");
  check_ok (convert_text F PAGE (tx "$ a $") None) (tx "#math.equation(block: false, $ a  $);");
  check_err (convert_text F PAGE (tx "$$ a $ $ b $$") None);
  check_err (convert_text F PAGE (tx "\[a\)\(b\]") None);
  check_err (convert_math F PAGE (tx "\left\0") None);
  check_err (convert_math F PAGE (tx "\end{}") None);
  check_ok (convert_text F PAGE (tx "\begin{quote}\end{quote}") None) (tx "#quote(block: true)[];");
  check_ok (convert_text F PAGE (tx "\begin{quote}yes\end{quote}") None) (tx "#quote(block: true)[yes];");
  check_ok (convert_text F PAGE (tx "\begin{abstract}\end{abstract}") None) (tx "#quote(block: true)[];");
  check_ok (convert_text F PAGE (tx "\begin{abstract}yes\end{abstract}") None) (tx "#quote(block: true)[yes];");
  check_ok (convert_text F PAGE (tx "\begin{tabular}{|c|c|}" ++ [10] ++ tx "        \hline" ++ [10] ++ tx "        \textbf{Name} & \textbf{Age} \\" ++ [10] ++ tx "        \hline" ++ [10] ++ tx "        John & 25 \\" ++ [10] ++ tx "        Jane & 22 \\" ++ [10] ++ tx "        \hline" ++ [10] ++ tx "    \end{tabular}") None) (tx "#table(stroke: none," ++ [10] ++ tx "columns: 2," ++ [10] ++ tx "align: (center, center, )," ++ [10] ++ tx "table.vline(stroke: .5pt, x: 0), table.vline(stroke: .5pt, x: 1), table.vline(stroke: .5pt, x: 2), " ++ [10] ++ tx "table.hline(stroke: .5pt)," ++ [10] ++ tx "[#strong[Name]; ], [#strong[Age]; ]," ++ [10] ++ tx "table.hline(stroke: .5pt)," ++ [10] ++ tx "[John ], [25 ]," ++ [10] ++ tx "[Jane ], [22 ]," ++ [10] ++ tx "table.hline(stroke: .5pt)," ++ [10] ++ tx ");");
  check_ok (convert_math F PAGE (tx "a \mathbf{strong} text") None) (tx "a  mitexmathbf(s t r o n g ) t e x t");
  check_ok (convert_math F PAGE (tx "\frac { 1 } { 2 }") None) (tx "frac( 1  , 2  )");
  check_ok (convert_math F PAGE (tx "a {\displaystyle text } b") None) (tx "a  mitexdisplay( t e x t  ) b");
  check_ok (convert_math F PAGE (tx "\displaystyle text ") None) (tx "mitexdisplay( t e x t  )");
  check_ok (convert_math F PAGE (tx "\displaystyle {text} ") None) (tx "mitexdisplay( t e x t , )");
  check_ok (convert_math F PAGE (tx "\displaystyle {\mathrm {text}} ") None) (tx "mitexdisplay( upright(t e x t ), )")
].
Definition trees : list bool := [
  check_tree (tx "\frac{ a }{ b }")
    (Node ScopeRoot [Node ItemCmd [Leaf ClauseCommandName (tx "\frac"); Node ClauseArgument [Node ItemCurly [Leaf TokenLBrace (tx "{"); Leaf TokenWhiteSpace (tx " "); Node ItemText [Leaf TokenWord (tx "a"); Leaf TokenWhiteSpace (tx " ")]; Leaf TokenRBrace (tx "}")]]; Node ClauseArgument [Node ItemCurly [Leaf TokenLBrace (tx "{"); Leaf TokenWhiteSpace (tx " "); Node ItemText [Leaf TokenWord (tx "b"); Leaf TokenWhiteSpace (tx " ")]; Leaf TokenRBrace (tx "}")]]]]);
  check_tree (tx "$u^" ++ [8722] ++ tx "$")
    (Node ScopeRoot [Node ItemFormula [Leaf TokenDollar (tx "$"); Node ItemAttachComponent [Node ClauseArgument [Node ItemText [Leaf TokenWord (tx "u")]]; Leaf TokenCaret (tx "^"); Leaf TokenWord ([8722])]; Leaf TokenDollar (tx "$")]]);
  check_tree (tx "\frac 1 2 _3")
    (Node ScopeRoot [Node ItemAttachComponent [Node ClauseArgument [Node ItemCmd [Leaf ClauseCommandName (tx "\frac"); Node ClauseArgument [Leaf TokenWord (tx "1")]; Node ClauseArgument [Leaf TokenWord (tx "2")]]; Leaf TokenWhiteSpace (tx " ")]; Leaf TokenUnderscore (tx "_"); Leaf TokenWord (tx "3")]]);
  check_tree (tx "\int_1^2 x \mathrm{d} x")
    (Node ScopeRoot [Node ItemAttachComponent [Node ClauseArgument [Node ItemAttachComponent [Node ClauseArgument [Node ItemCmd [Leaf ClauseCommandName (tx "\int")]]; Leaf TokenUnderscore (tx "_"); Leaf TokenWord (tx "1")]]; Leaf TokenCaret (tx "^"); Leaf TokenWord (tx "2")]; Leaf TokenWhiteSpace (tx " "); Node ItemText [Leaf TokenWord (tx "x"); Leaf TokenWhiteSpace (tx " ")]; Node ItemCmd [Leaf ClauseCommandName (tx "\mathrm"); Node ClauseArgument [Node ItemCurly [Leaf TokenLBrace (tx "{"); Node ItemText [Leaf TokenWord (tx "d")]; Leaf TokenRBrace (tx "}")]]]; Leaf TokenWhiteSpace (tx " "); Node ItemText [Leaf TokenWord (tx "x")]]);
  check_tree (tx "\alpha_1")
    (Node ScopeRoot [Node ItemAttachComponent [Node ClauseArgument [Node ItemCmd [Leaf ClauseCommandName (tx "\alpha")]]; Leaf TokenUnderscore (tx "_"); Leaf TokenWord (tx "1")]]);
  check_tree (tx "a \textbf{strong} text")
    (Node ScopeRoot [Node ItemText [Leaf TokenWord (tx "a"); Leaf TokenWhiteSpace (tx " ")]; Node ItemCmd [Leaf ClauseCommandName (tx "\textbf"); Node ClauseArgument [Node ItemCurly [Leaf TokenLBrace (tx "{"); Node ItemText [Leaf TokenWord (tx "strong")]; Leaf TokenRBrace (tx "}")]]]; Leaf TokenWhiteSpace (tx " "); Node ItemText [Leaf TokenWord (tx "text")]]);
  check_tree (tx "x \color {red} yz \frac{1}{2}")
    (Node ScopeRoot [Node ItemText [Leaf TokenWord (tx "x"); Leaf TokenWhiteSpace (tx " ")]; Node ItemCmd [Leaf ClauseCommandName (tx "\color"); Node ClauseArgument [Leaf TokenWhiteSpace (tx " "); Node ItemCurly [Leaf TokenLBrace (tx "{"); Node ItemText [Leaf TokenWord (tx "red")]; Leaf TokenRBrace (tx "}")]; Leaf TokenWhiteSpace (tx " "); Node ItemText [Leaf TokenWord (tx "yz"); Leaf TokenWhiteSpace (tx " ")]; Node ItemCmd [Leaf ClauseCommandName (tx "\frac"); Node ClauseArgument [Node ItemCurly [Leaf TokenLBrace (tx "{"); Node ItemText [Leaf TokenWord (tx "1")]; Leaf TokenRBrace (tx "}")]]; Node ClauseArgument [Node ItemCurly [Leaf TokenLBrace (tx "{"); Node ItemText [Leaf TokenWord (tx "2")]; Leaf TokenRBrace (tx "}")]]]]]]);
  check_tree (tx "\frac abcd")
    (Node ScopeRoot [Node ItemCmd [Leaf ClauseCommandName (tx "\frac"); Node ClauseArgument [Leaf TokenWord (tx "a")]; Node ClauseArgument [Leaf TokenWord (tx "b")]]; Node ItemText [Leaf TokenWord (tx "cd")]]);
  check_tree (tx "\frac ab")
    (Node ScopeRoot [Node ItemCmd [Leaf ClauseCommandName (tx "\frac"); Node ClauseArgument [Leaf TokenWord (tx "a")]; Node ClauseArgument [Leaf TokenWord (tx "b")]]]);
  check_tree (tx "\frac a")
    (Node ScopeRoot [Node ItemCmd [Leaf ClauseCommandName (tx "\frac"); Node ClauseArgument [Leaf TokenWord (tx "a")]]]);
  check_tree (tx "\mathrm(x)")
    (Node ScopeRoot [Node ItemCmd [Leaf ClauseCommandName (tx "\mathrm"); Node ClauseArgument [Leaf TokenLParen (tx "(")]]; Node ItemText [Leaf TokenWord (tx "x")]; Leaf TokenRParen (tx ")")]);
  check_tree (tx "\mathrm[x]")
    (Node ScopeRoot [Node ItemCmd [Leaf ClauseCommandName (tx "\mathrm"); Node ClauseArgument [Leaf TokenLBracket (tx "[")]]; Node ItemText [Leaf TokenWord (tx "x")]; Leaf TokenRBracket (tx "]")]);
  check_tree (tx "\mathrm\lbrace x \rbrace")
    (Node ScopeRoot [Node ItemCmd [Leaf ClauseCommandName (tx "\mathrm"); Node ClauseArgument [Node ItemCmd [Leaf ClauseCommandName (tx "\lbrace")]]]; Leaf TokenWhiteSpace (tx " "); Node ItemText [Leaf TokenWord (tx "x"); Leaf TokenWhiteSpace (tx " ")]; Node ItemCmd [Leaf ClauseCommandName (tx "\rbrace")]]);
  check_tree ([10] ++ tx "    \begin{matrix}" ++ [10] ++ tx "        \displaystyle 1 & 2 \\" ++ [10] ++ tx "        3 & 4 \\" ++ [10] ++ tx "    \end{matrix}" ++ [10] ++ tx "    ")
    (Node ScopeRoot [Leaf TokenLineBreak ([10]); Leaf TokenWhiteSpace (tx "    "); Node ItemEnv [Node ItemBegin [Leaf TokenCommandSym (tx "matrix")]; Leaf TokenLineBreak ([10]); Leaf TokenWhiteSpace (tx "        "); Node ItemCmd [Leaf ClauseCommandName (tx "\displaystyle"); Node ClauseArgument [Leaf TokenWhiteSpace (tx " "); Node ItemText [Leaf TokenWord (tx "1"); Leaf TokenWhiteSpace (tx " ")]]]; Leaf TokenAmpersand (tx "&"); Leaf TokenWhiteSpace (tx " "); Node ItemText [Leaf TokenWord (tx "2"); Leaf TokenWhiteSpace (tx " ")]; Leaf ItemNewLine (tx "\\"); Leaf TokenLineBreak ([10]); Leaf TokenWhiteSpace (tx "        "); Node ItemText [Leaf TokenWord (tx "3"); Leaf TokenWhiteSpace (tx " ")]; Leaf TokenAmpersand (tx "&"); Leaf TokenWhiteSpace (tx " "); Node ItemText [Leaf TokenWord (tx "4"); Leaf TokenWhiteSpace (tx " ")]; Leaf ItemNewLine (tx "\\"); Leaf TokenLineBreak ([10]); Leaf TokenWhiteSpace (tx "    "); Node ItemEnd [Leaf TokenCommandSym (tx "matrix")]]; Leaf TokenLineBreak ([10]); Leaf TokenWhiteSpace (tx "    ")]);
  check_tree ([10] ++ tx "    \begin{matrix}" ++ [10] ++ tx "        \displaystyle 1 \\" ++ [10] ++ tx "        3 \\" ++ [10] ++ tx "    \end{matrix}" ++ [10] ++ tx "    ")
    (Node ScopeRoot [Leaf TokenLineBreak ([10]); Leaf TokenWhiteSpace (tx "    "); Node ItemEnv [Node ItemBegin [Leaf TokenCommandSym (tx "matrix")]; Leaf TokenLineBreak ([10]); Leaf TokenWhiteSpace (tx "        "); Node ItemCmd [Leaf ClauseCommandName (tx "\displaystyle"); Node ClauseArgument [Leaf TokenWhiteSpace (tx " "); Node ItemText [Leaf TokenWord (tx "1"); Leaf TokenWhiteSpace (tx " ")]]]; Leaf ItemNewLine (tx "\\"); Leaf TokenLineBreak ([10]); Leaf TokenWhiteSpace (tx "        "); Node ItemText [Leaf TokenWord (tx "3"); Leaf TokenWhiteSpace (tx " ")]; Leaf ItemNewLine (tx "\\"); Leaf TokenLineBreak ([10]); Leaf TokenWhiteSpace (tx "    "); Node ItemEnd [Leaf TokenCommandSym (tx "matrix")]]; Leaf TokenLineBreak ([10]); Leaf TokenWhiteSpace (tx "    ")]);
  check_tree ([10] ++ tx "    \begin{matrix}\frac{1} & {2}\end{matrix}" ++ [10] ++ tx "    ")
    (Node ScopeRoot [Leaf TokenLineBreak ([10]); Leaf TokenWhiteSpace (tx "    "); Node ItemEnv [Node ItemBegin [Leaf TokenCommandSym (tx "matrix")]; Node ItemCmd [Leaf ClauseCommandName (tx "\frac"); Node ClauseArgument [Node ItemCurly [Leaf TokenLBrace (tx "{"); Node ItemText [Leaf TokenWord (tx "1")]; Leaf TokenRBrace (tx "}")]]]; Leaf TokenWhiteSpace (tx " "); Leaf TokenAmpersand (tx "&"); Leaf TokenWhiteSpace (tx " "); Node ItemCurly [Leaf TokenLBrace (tx "{"); Node ItemText [Leaf TokenWord (tx "2")]; Leaf TokenRBrace (tx "}")]; Node ItemEnd [Leaf TokenCommandSym (tx "matrix")]]; Leaf TokenLineBreak ([10]); Leaf TokenWhiteSpace (tx "    ")]);
  check_tree ([10] ++ tx "    \begin{matrix}\frac{1} \\ {2}\end{matrix}" ++ [10] ++ tx "    ")
    (Node ScopeRoot [Leaf TokenLineBreak ([10]); Leaf TokenWhiteSpace (tx "    "); Node ItemEnv [Node ItemBegin [Leaf TokenCommandSym (tx "matrix")]; Node ItemCmd [Leaf ClauseCommandName (tx "\frac"); Node ClauseArgument [Node ItemCurly [Leaf TokenLBrace (tx "{"); Node ItemText [Leaf TokenWord (tx "1")]; Leaf TokenRBrace (tx "}")]]; Node ClauseArgument [Leaf ItemNewLine (tx "\\")]]; Leaf TokenWhiteSpace (tx " "); Node ItemCurly [Leaf TokenLBrace (tx "{"); Node ItemText [Leaf TokenWord (tx "2")]; Leaf TokenRBrace (tx "}")]; Node ItemEnd [Leaf TokenCommandSym (tx "matrix")]]; Leaf TokenLineBreak ([10]); Leaf TokenWhiteSpace (tx "    ")]);
  check_tree ([10] ++ tx "    1 \over 2 \\ 3 " ++ [10] ++ tx "    ")
    (Node ScopeRoot [Node ItemCmd [Node ClauseArgument [Leaf TokenLineBreak ([10]); Leaf TokenWhiteSpace (tx "    "); Node ItemText [Leaf TokenWord (tx "1"); Leaf TokenWhiteSpace (tx " ")]]; Leaf ClauseCommandName (tx "\over"); Node ClauseArgument [Leaf TokenWhiteSpace (tx " "); Node ItemText [Leaf TokenWord (tx "2"); Leaf TokenWhiteSpace (tx " ")]; Leaf ItemNewLine (tx "\\"); Leaf TokenWhiteSpace (tx " "); Node ItemText [Leaf TokenWord (tx "3"); Leaf TokenWhiteSpace (tx " "); Leaf TokenLineBreak ([10]); Leaf TokenWhiteSpace (tx "    ")]]]]);
  check_tree ([10] ++ tx "    \displaystyle \frac{1}{2} \\ \frac{1}{2} " ++ [10] ++ tx "    ")
    (Node ScopeRoot [Leaf TokenLineBreak ([10]); Leaf TokenWhiteSpace (tx "    "); Node ItemCmd [Leaf ClauseCommandName (tx "\displaystyle"); Node ClauseArgument [Leaf TokenWhiteSpace (tx " "); Node ItemCmd [Leaf ClauseCommandName (tx "\frac"); Node ClauseArgument [Node ItemCurly [Leaf TokenLBrace (tx "{"); Node ItemText [Leaf TokenWord (tx "1")]; Leaf TokenRBrace (tx "}")]]; Node ClauseArgument [Node ItemCurly [Leaf TokenLBrace (tx "{"); Node ItemText [Leaf TokenWord (tx "2")]; Leaf TokenRBrace (tx "}")]]]; Leaf TokenWhiteSpace (tx " "); Leaf ItemNewLine (tx "\\"); Leaf TokenWhiteSpace (tx " "); Node ItemCmd [Leaf ClauseCommandName (tx "\frac"); Node ClauseArgument [Node ItemCurly [Leaf TokenLBrace (tx "{"); Node ItemText [Leaf TokenWord (tx "1")]; Leaf TokenRBrace (tx "}")]]; Node ClauseArgument [Node ItemCurly [Leaf TokenLBrace (tx "{"); Node ItemText [Leaf TokenWord (tx "2")]; Leaf TokenRBrace (tx "}")]]]; Leaf TokenWhiteSpace (tx " "); Leaf TokenLineBreak ([10]); Leaf TokenWhiteSpace (tx "    ")]]]);
  check_tree ([10] ++ tx "    \left. \displaystyle \frac{1}{2} \\ \frac{1}{2} \right." ++ [10] ++ tx "    ")
    (Node ScopeRoot [Leaf TokenLineBreak ([10]); Leaf TokenWhiteSpace (tx "    "); Node ItemLR [Node ClauseLR [Leaf ClauseCommandName (tx "\left"); Leaf TokenWord (tx ".")]; Leaf TokenWhiteSpace (tx " "); Node ItemCmd [Leaf ClauseCommandName (tx "\displaystyle"); Node ClauseArgument [Leaf TokenWhiteSpace (tx " "); Node ItemCmd [Leaf ClauseCommandName (tx "\frac"); Node ClauseArgument [Node ItemCurly [Leaf TokenLBrace (tx "{"); Node ItemText [Leaf TokenWord (tx "1")]; Leaf TokenRBrace (tx "}")]]; Node ClauseArgument [Node ItemCurly [Leaf TokenLBrace (tx "{"); Node ItemText [Leaf TokenWord (tx "2")]; Leaf TokenRBrace (tx "}")]]]; Leaf TokenWhiteSpace (tx " "); Leaf ItemNewLine (tx "\\"); Leaf TokenWhiteSpace (tx " "); Node ItemCmd [Leaf ClauseCommandName (tx "\frac"); Node ClauseArgument [Node ItemCurly [Leaf TokenLBrace (tx "{"); Node ItemText [Leaf TokenWord (tx "1")]; Leaf TokenRBrace (tx "}")]]; Node ClauseArgument [Node ItemCurly [Leaf TokenLBrace (tx "{"); Node ItemText [Leaf TokenWord (tx "2")]; Leaf TokenRBrace (tx "}")]]]; Leaf TokenWhiteSpace (tx " ")]]; Node ClauseLR [Leaf ClauseCommandName (tx "\right"); Leaf TokenWord (tx ".")]]; Leaf TokenLineBreak ([10]); Leaf TokenWhiteSpace (tx "    ")]);
  check_tree ([10] ++ tx "    \sqrt[\displaystyle \frac{1}{2} \\ \frac{1}{2} ]{}" ++ [10] ++ tx "    ")
    (Node ScopeRoot [Leaf TokenLineBreak ([10]); Leaf TokenWhiteSpace (tx "    "); Node ItemCmd [Leaf ClauseCommandName (tx "\sqrt"); Node ClauseArgument [Node ItemBracket [Leaf TokenLBracket (tx "["); Node ItemCmd [Leaf ClauseCommandName (tx "\displaystyle"); Node ClauseArgument [Leaf TokenWhiteSpace (tx " "); Node ItemCmd [Leaf ClauseCommandName (tx "\frac"); Node ClauseArgument [Node ItemCurly [Leaf TokenLBrace (tx "{"); Node ItemText [Leaf TokenWord (tx "1")]; Leaf TokenRBrace (tx "}")]]; Node ClauseArgument [Node ItemCurly [Leaf TokenLBrace (tx "{"); Node ItemText [Leaf TokenWord (tx "2")]; Leaf TokenRBrace (tx "}")]]]; Leaf TokenWhiteSpace (tx " "); Leaf ItemNewLine (tx "\\"); Leaf TokenWhiteSpace (tx " "); Node ItemCmd [Leaf ClauseCommandName (tx "\frac"); Node ClauseArgument [Node ItemCurly [Leaf TokenLBrace (tx "{"); Node ItemText [Leaf TokenWord (tx "1")]; Leaf TokenRBrace (tx "}")]]; Node ClauseArgument [Node ItemCurly [Leaf TokenLBrace (tx "{"); Node ItemText [Leaf TokenWord (tx "2")]; Leaf TokenRBrace (tx "}")]]]; Leaf TokenWhiteSpace (tx " ")]]; Leaf TokenRBracket (tx "]")]]; Node ClauseArgument [Node ItemCurly [Leaf TokenLBrace (tx "{"); Leaf TokenRBrace (tx "}")]]]; Leaf TokenLineBreak ([10]); Leaf TokenWhiteSpace (tx "    ")]);
  check_tree ([10] ++ tx "    \begin{matrix}a \over b \\ c\end{matrix}" ++ [10] ++ tx "    ")
    (Node ScopeRoot [Leaf TokenLineBreak ([10]); Leaf TokenWhiteSpace (tx "    "); Node ItemEnv [Node ItemBegin [Leaf TokenCommandSym (tx "matrix")]; Node ItemCmd [Node ClauseArgument [Node ItemText [Leaf TokenWord (tx "a"); Leaf TokenWhiteSpace (tx " ")]]; Leaf ClauseCommandName (tx "\over"); Node ClauseArgument [Leaf TokenWhiteSpace (tx " "); Node ItemText [Leaf TokenWord (tx "b"); Leaf TokenWhiteSpace (tx " ")]]]; Leaf ItemNewLine (tx "\\"); Leaf TokenWhiteSpace (tx " "); Node ItemText [Leaf TokenWord (tx "c")]; Node ItemEnd [Leaf TokenCommandSym (tx "matrix")]]; Leaf TokenLineBreak ([10]); Leaf TokenWhiteSpace (tx "    ")]);
  check_tree (tx "\sqrt 12")
    (Node ScopeRoot [Node ItemCmd [Leaf ClauseCommandName (tx "\sqrt"); Node ClauseArgument [Leaf TokenWord (tx "1")]]; Node ItemText [Leaf TokenWord (tx "2")]]);
  check_tree (tx "\sqrt{1}2")
    (Node ScopeRoot [Node ItemCmd [Leaf ClauseCommandName (tx "\sqrt"); Node ClauseArgument [Node ItemCurly [Leaf TokenLBrace (tx "{"); Node ItemText [Leaf TokenWord (tx "1")]; Leaf TokenRBrace (tx "}")]]]; Node ItemText [Leaf TokenWord (tx "2")]]);
  check_tree (tx "\sqrt[1]")
    (Node ScopeRoot [Node ItemCmd [Leaf ClauseCommandName (tx "\sqrt"); Node ClauseArgument [Node ItemBracket [Leaf TokenLBracket (tx "["); Node ItemText [Leaf TokenWord (tx "1")]; Leaf TokenRBracket (tx "]")]]]]);
  check_tree (tx "\sqrt[1]{2}")
    (Node ScopeRoot [Node ItemCmd [Leaf ClauseCommandName (tx "\sqrt"); Node ClauseArgument [Node ItemBracket [Leaf TokenLBracket (tx "["); Node ItemText [Leaf TokenWord (tx "1")]; Leaf TokenRBracket (tx "]")]]; Node ClauseArgument [Node ItemCurly [Leaf TokenLBrace (tx "{"); Node ItemText [Leaf TokenWord (tx "2")]; Leaf TokenRBrace (tx "}")]]]]);
  check_tree (tx "\sqrt[1]{2}3")
    (Node ScopeRoot [Node ItemCmd [Leaf ClauseCommandName (tx "\sqrt"); Node ClauseArgument [Node ItemBracket [Leaf TokenLBracket (tx "["); Node ItemText [Leaf TokenWord (tx "1")]; Leaf TokenRBracket (tx "]")]]; Node ClauseArgument [Node ItemCurly [Leaf TokenLBrace (tx "{"); Node ItemText [Leaf TokenWord (tx "2")]; Leaf TokenRBrace (tx "}")]]]; Node ItemText [Leaf TokenWord (tx "3")]]);
  check_tree (tx "$\text{${1}$}$")
    (Node ScopeRoot [Node ItemFormula [Leaf TokenDollar (tx "$"); Node ItemCmd [Leaf ClauseCommandName (tx "\text"); Node ClauseArgument [Node ItemCurly [Leaf TokenLBrace (tx "{"); Node ItemFormula [Leaf TokenDollar (tx "$"); Node ItemCurly [Leaf TokenLBrace (tx "{"); Node ItemText [Leaf TokenWord (tx "1")]; Leaf TokenRBrace (tx "}")]; Leaf TokenDollar (tx "$")]; Leaf TokenRBrace (tx "}")]]]; Leaf TokenDollar (tx "$")]]);
  check_tree (tx "$\frac{${1}$}{${2}$}$")
    (Node ScopeRoot [Node ItemFormula [Leaf TokenDollar (tx "$"); Node ItemCmd [Leaf ClauseCommandName (tx "\frac"); Node ClauseArgument [Node ItemCurly [Leaf TokenLBrace (tx "{"); Node ItemFormula [Leaf TokenDollar (tx "$"); Node ItemCurly [Leaf TokenLBrace (tx "{"); Node ItemText [Leaf TokenWord (tx "1")]; Leaf TokenRBrace (tx "}")]; Leaf TokenDollar (tx "$")]; Leaf TokenRBrace (tx "}")]]; Node ClauseArgument [Node ItemCurly [Leaf TokenLBrace (tx "{"); Node ItemFormula [Leaf TokenDollar (tx "$"); Node ItemCurly [Leaf TokenLBrace (tx "{"); Node ItemText [Leaf TokenWord (tx "2")]; Leaf TokenRBrace (tx "}")]; Leaf TokenDollar (tx "$")]; Leaf TokenRBrace (tx "}")]]]; Leaf TokenDollar (tx "$")]]);
  check_tree (tx "_1^2")
    (Node ScopeRoot [Node ItemAttachComponent [Leaf TokenUnderscore (tx "_"); Leaf TokenWord (tx "1")]; Node ItemAttachComponent [Leaf TokenCaret (tx "^"); Leaf TokenWord (tx "2")]]);
  check_tree (tx "{}_{1}^2")
    (Node ScopeRoot [Node ItemAttachComponent [Node ClauseArgument [Node ItemAttachComponent [Node ClauseArgument [Node ItemCurly [Leaf TokenLBrace (tx "{"); Leaf TokenRBrace (tx "}")]]; Leaf TokenUnderscore (tx "_"); Node ItemCurly [Leaf TokenLBrace (tx "{"); Node ItemText [Leaf TokenWord (tx "1")]; Leaf TokenRBrace (tx "}")]]]; Leaf TokenCaret (tx "^"); Leaf TokenWord (tx "2")]]);
  check_tree (tx "\alpha_1")
    (Node ScopeRoot [Node ItemAttachComponent [Node ClauseArgument [Node ItemCmd [Leaf ClauseCommandName (tx "\alpha")]]; Leaf TokenUnderscore (tx "_"); Leaf TokenWord (tx "1")]]);
  check_tree (tx "\alpha_[1]")
    (Node ScopeRoot [Node ItemAttachComponent [Node ClauseArgument [Node ItemCmd [Leaf ClauseCommandName (tx "\alpha")]]; Leaf TokenUnderscore (tx "_"); Leaf TokenLBracket (tx "[")]; Node ItemText [Leaf TokenWord (tx "1")]; Leaf TokenRBracket (tx "]")]);
  check_tree (tx "\alpha_(1)")
    (Node ScopeRoot [Node ItemAttachComponent [Node ClauseArgument [Node ItemCmd [Leaf ClauseCommandName (tx "\alpha")]]; Leaf TokenUnderscore (tx "_"); Leaf TokenLParen (tx "(")]; Node ItemText [Leaf TokenWord (tx "1")]; Leaf TokenRParen (tx ")")]);
  check_tree (tx "_1")
    (Node ScopeRoot [Node ItemAttachComponent [Leaf TokenUnderscore (tx "_"); Leaf TokenWord (tx "1")]]);
  check_tree (tx "\over_1")
    (Node ScopeRoot [Node ItemCmd [Node ClauseArgument []; Leaf ClauseCommandName (tx "\over"); Node ClauseArgument [Node ItemAttachComponent [Leaf TokenUnderscore (tx "_"); Leaf TokenWord (tx "1")]]]]);
  check_tree (tx "{}_1")
    (Node ScopeRoot [Node ItemAttachComponent [Node ClauseArgument [Node ItemCurly [Leaf TokenLBrace (tx "{"); Leaf TokenRBrace (tx "}")]]; Leaf TokenUnderscore (tx "_"); Leaf TokenWord (tx "1")]]);
  check_tree (tx "{}_1_1")
    (Node ScopeRoot [Node ItemAttachComponent [Node ClauseArgument [Node ItemAttachComponent [Node ClauseArgument [Node ItemCurly [Leaf TokenLBrace (tx "{"); Leaf TokenRBrace (tx "}")]]; Leaf TokenUnderscore (tx "_"); Leaf TokenWord (tx "1")]]; Leaf TokenUnderscore (tx "_"); Leaf TokenWord (tx "1")]]);
  check_tree (tx "\frac{1}{2}_{3}")
    (Node ScopeRoot [Node ItemAttachComponent [Node ClauseArgument [Node ItemCmd [Leaf ClauseCommandName (tx "\frac"); Node ClauseArgument [Node ItemCurly [Leaf TokenLBrace (tx "{"); Node ItemText [Leaf TokenWord (tx "1")]; Leaf TokenRBrace (tx "}")]]; Node ClauseArgument [Node ItemCurly [Leaf TokenLBrace (tx "{"); Node ItemText [Leaf TokenWord (tx "2")]; Leaf TokenRBrace (tx "}")]]]]; Leaf TokenUnderscore (tx "_"); Node ItemCurly [Leaf TokenLBrace (tx "{"); Node ItemText [Leaf TokenWord (tx "3")]; Leaf TokenRBrace (tx "}")]]]);
  check_tree (tx "\overbrace{a + b + c}^{\text{This is an overbrace}}")
    (Node ScopeRoot [Node ItemAttachComponent [Node ClauseArgument [Node ItemCmd [Leaf ClauseCommandName (tx "\overbrace"); Node ClauseArgument [Node ItemCurly [Leaf TokenLBrace (tx "{"); Node ItemText [Leaf TokenWord (tx "a"); Leaf TokenWhiteSpace (tx " "); Leaf TokenWord (tx "+"); Leaf TokenWhiteSpace (tx " "); Leaf TokenWord (tx "b"); Leaf TokenWhiteSpace (tx " "); Leaf TokenWord (tx "+"); Leaf TokenWhiteSpace (tx " "); Leaf TokenWord (tx "c")]; Leaf TokenRBrace (tx "}")]]]]; Leaf TokenCaret (tx "^"); Node ItemCurly [Leaf TokenLBrace (tx "{"); Node ItemCmd [Leaf ClauseCommandName (tx "\text"); Node ClauseArgument [Node ItemCurly [Leaf TokenLBrace (tx "{"); Node ItemText [Leaf TokenWord (tx "This"); Leaf TokenWhiteSpace (tx " "); Leaf TokenWord (tx "is"); Leaf TokenWhiteSpace (tx " "); Leaf TokenWord (tx "an"); Leaf TokenWhiteSpace (tx " "); Leaf TokenWord (tx "overbrace")]; Leaf TokenRBrace (tx "}")]]]; Leaf TokenRBrace (tx "}")]]]);
  check_tree (tx "\underbrace{x \times y}_{\text{This is an underbrace}}")
    (Node ScopeRoot [Node ItemAttachComponent [Node ClauseArgument [Node ItemCmd [Leaf ClauseCommandName (tx "\underbrace"); Node ClauseArgument [Node ItemCurly [Leaf TokenLBrace (tx "{"); Node ItemText [Leaf TokenWord (tx "x"); Leaf TokenWhiteSpace (tx " ")]; Node ItemCmd [Leaf ClauseCommandName (tx "\times")]; Leaf TokenWhiteSpace (tx " "); Node ItemText [Leaf TokenWord (tx "y")]; Leaf TokenRBrace (tx "}")]]]]; Leaf TokenUnderscore (tx "_"); Node ItemCurly [Leaf TokenLBrace (tx "{"); Node ItemCmd [Leaf ClauseCommandName (tx "\text"); Node ClauseArgument [Node ItemCurly [Leaf TokenLBrace (tx "{"); Node ItemText [Leaf TokenWord (tx "This"); Leaf TokenWhiteSpace (tx " "); Leaf TokenWord (tx "is"); Leaf TokenWhiteSpace (tx " "); Leaf TokenWord (tx "an"); Leaf TokenWhiteSpace (tx " "); Leaf TokenWord (tx "underbrace")]; Leaf TokenRBrace (tx "}")]]]; Leaf TokenRBrace (tx "}")]]]);
  check_tree (tx "x_1''^2")
    (Node ScopeRoot [Node ItemAttachComponent [Node ClauseArgument [Node ItemAttachComponent [Node ClauseArgument [Node ItemAttachComponent [Node ClauseArgument [Node ItemAttachComponent [Node ClauseArgument [Node ItemText [Leaf TokenWord (tx "x")]]; Leaf TokenUnderscore (tx "_"); Leaf TokenWord (tx "1")]]; Leaf TokenApostrophe (tx "'")]]; Leaf TokenApostrophe (tx "'")]]; Leaf TokenCaret (tx "^"); Leaf TokenWord (tx "2")]]);
  check_tree (tx "x''_1")
    (Node ScopeRoot [Node ItemAttachComponent [Node ClauseArgument [Node ItemAttachComponent [Node ClauseArgument [Node ItemAttachComponent [Node ClauseArgument [Node ItemText [Leaf TokenWord (tx "x")]]; Leaf TokenApostrophe (tx "'")]]; Leaf TokenApostrophe (tx "'")]]; Leaf TokenUnderscore (tx "_"); Leaf TokenWord (tx "1")]]);
  check_tree (tx "''")
    (Node ScopeRoot [Leaf TokenApostrophe (tx "'"); Leaf TokenApostrophe (tx "'")]);
  check_tree (tx "\frac''")
    (Node ScopeRoot [Node ItemCmd [Leaf ClauseCommandName (tx "\frac"); Node ClauseArgument [Leaf TokenApostrophe (tx "'")]; Node ClauseArgument [Leaf TokenApostrophe (tx "'")]]]);
  check_tree (tx "\frac ab_c")
    (Node ScopeRoot [Node ItemAttachComponent [Node ClauseArgument [Node ItemCmd [Leaf ClauseCommandName (tx "\frac"); Node ClauseArgument [Leaf TokenWord (tx "a")]; Node ClauseArgument [Leaf TokenWord (tx "b")]]]; Leaf TokenUnderscore (tx "_"); Leaf TokenWord (tx "c")]]);
  check_tree (tx "\frac a_c b")
    (Node ScopeRoot [Node ItemAttachComponent [Node ClauseArgument [Node ItemCmd [Leaf ClauseCommandName (tx "\frac"); Node ClauseArgument [Leaf TokenWord (tx "a")]]]; Leaf TokenUnderscore (tx "_"); Leaf TokenWord (tx "c")]; Leaf TokenWhiteSpace (tx " "); Node ItemText [Leaf TokenWord (tx "b")]]);
  check_tree (tx "\frac {a_c} b")
    (Node ScopeRoot [Node ItemCmd [Leaf ClauseCommandName (tx "\frac"); Node ClauseArgument [Node ItemCurly [Leaf TokenLBrace (tx "{"); Node ItemAttachComponent [Node ClauseArgument [Node ItemText [Leaf TokenWord (tx "a")]]; Leaf TokenUnderscore (tx "_"); Leaf TokenWord (tx "c")]; Leaf TokenRBrace (tx "}")]]; Node ClauseArgument [Leaf TokenWord (tx "b")]]]);
  check_tree (tx "\iffalse Test\fi")
    (Node ScopeRoot [Node ItemBlockComment [Leaf TokenWhiteSpace (tx " "); Leaf TokenWord (tx "Test")]]);
  check_tree (tx "\iffalse Test\else \LaTeX\fi")
    (Node ScopeRoot [Node ItemBlockComment [Leaf TokenWhiteSpace (tx " "); Leaf TokenWord (tx "Test")]; Leaf TokenWhiteSpace (tx " "); Node ItemCmd [Leaf ClauseCommandName (tx "\LaTeX")]]);
  check_tree (tx "\iffalse Test\ifhbox Commented HBox\fi\fi")
    (Node ScopeRoot [Node ItemBlockComment [Leaf TokenWhiteSpace (tx " "); Leaf TokenWord (tx "Test"); Leaf ClauseCommandName (tx "\ifhbox"); Leaf TokenWhiteSpace (tx " "); Leaf TokenWord (tx "Commented"); Leaf TokenWhiteSpace (tx " "); Leaf TokenWord (tx "HBox"); Leaf ClauseCommandName (tx "\fi")]]);
  check_tree (tx "\operatorname*{a}")
    (Node ScopeRoot [Node ItemCmd [Leaf ClauseCommandName (tx "\operatorname*"); Node ClauseArgument [Node ItemCurly [Leaf TokenLBrace (tx "{"); Node ItemText [Leaf TokenWord (tx "a")]; Leaf TokenRBrace (tx "}")]]]]);
  check_tree (tx "\varphi*1")
    (Node ScopeRoot [Node ItemCmd [Leaf ClauseCommandName (tx "\varphi")]; Leaf TokenAsterisk (tx "*"); Node ItemText [Leaf TokenWord (tx "1")]]);
  check_tree (tx "\sum")
    (Node ScopeRoot [Node ItemCmd [Leaf ClauseCommandName (tx "\sum")]]);
  check_tree (tx "\sum\limits")
    (Node ScopeRoot [Node ItemCmd [Node ClauseArgument [Node ItemCmd [Leaf ClauseCommandName (tx "\sum")]]; Leaf ClauseCommandName (tx "\limits")]]);
  check_tree (tx "\sum \limits")
    (Node ScopeRoot [Node ItemCmd [Node ClauseArgument [Node ItemCmd [Leaf ClauseCommandName (tx "\sum")]; Leaf TokenWhiteSpace (tx " ")]; Leaf ClauseCommandName (tx "\limits")]]);
  check_tree (tx "\sum\limits\limits")
    (Node ScopeRoot [Node ItemCmd [Node ClauseArgument [Node ItemCmd [Node ClauseArgument [Node ItemCmd [Leaf ClauseCommandName (tx "\sum")]]; Leaf ClauseCommandName (tx "\limits")]]; Leaf ClauseCommandName (tx "\limits")]]);
  check_tree (tx "\sum\limits\sum")
    (Node ScopeRoot [Node ItemCmd [Node ClauseArgument [Node ItemCmd [Leaf ClauseCommandName (tx "\sum")]]; Leaf ClauseCommandName (tx "\limits")]; Node ItemCmd [Leaf ClauseCommandName (tx "\sum")]]);
  check_tree (tx "\sum\limits\sum\limits")
    (Node ScopeRoot [Node ItemCmd [Node ClauseArgument [Node ItemCmd [Leaf ClauseCommandName (tx "\sum")]]; Leaf ClauseCommandName (tx "\limits")]; Node ItemCmd [Node ClauseArgument [Node ItemCmd [Leaf ClauseCommandName (tx "\sum")]]; Leaf ClauseCommandName (tx "\limits")]]);
  check_tree (tx "\limits")
    (Node ScopeRoot [Node ItemCmd [Node ClauseArgument []; Leaf ClauseCommandName (tx "\limits")]]);
  check_tree (tx "1 \over \displaystyle 2")
    (Node ScopeRoot [Node ItemCmd [Node ClauseArgument [Node ItemText [Leaf TokenWord (tx "1"); Leaf TokenWhiteSpace (tx " ")]]; Leaf ClauseCommandName (tx "\over"); Node ClauseArgument [Leaf TokenWhiteSpace (tx " "); Node ItemCmd [Leaf ClauseCommandName (tx "\displaystyle"); Node ClauseArgument [Leaf TokenWhiteSpace (tx " "); Node ItemText [Leaf TokenWord (tx "2")]]]]]]);
  check_tree (tx "\displaystyle \displaystyle 1 \over 2")
    (Node ScopeRoot [Node ItemCmd [Leaf ClauseCommandName (tx "\displaystyle"); Node ClauseArgument [Leaf TokenWhiteSpace (tx " "); Node ItemCmd [Leaf ClauseCommandName (tx "\displaystyle"); Node ClauseArgument [Node ItemCmd [Node ClauseArgument [Leaf TokenWhiteSpace (tx " "); Node ItemText [Leaf TokenWord (tx "1"); Leaf TokenWhiteSpace (tx " ")]]; Leaf ClauseCommandName (tx "\over"); Node ClauseArgument [Leaf TokenWhiteSpace (tx " "); Node ItemText [Leaf TokenWord (tx "2")]]]]]]]]);
  check_tree (tx "\displaystyle 1 \over 2")
    (Node ScopeRoot [Node ItemCmd [Leaf ClauseCommandName (tx "\displaystyle"); Node ClauseArgument [Node ItemCmd [Node ClauseArgument [Leaf TokenWhiteSpace (tx " "); Node ItemText [Leaf TokenWord (tx "1"); Leaf TokenWhiteSpace (tx " ")]]; Leaf ClauseCommandName (tx "\over"); Node ClauseArgument [Leaf TokenWhiteSpace (tx " "); Node ItemText [Leaf TokenWord (tx "2")]]]]]]);
  check_tree (tx "a \over c \over b")
    (Node ScopeRoot [Node ItemCmd [Node ClauseArgument [Node ItemText [Leaf TokenWord (tx "a"); Leaf TokenWhiteSpace (tx " ")]]; Leaf ClauseCommandName (tx "\over"); Node ClauseArgument [Node ItemCmd [Node ClauseArgument [Leaf TokenWhiteSpace (tx " "); Node ItemText [Leaf TokenWord (tx "c"); Leaf TokenWhiteSpace (tx " ")]]; Leaf ClauseCommandName (tx "\over"); Node ClauseArgument [Leaf TokenWhiteSpace (tx " "); Node ItemText [Leaf TokenWord (tx "b")]]]]]]);
  check_tree (tx "\displaystyle")
    (Node ScopeRoot [Node ItemCmd [Leaf ClauseCommandName (tx "\displaystyle"); Node ClauseArgument []]]);
  check_tree (tx "\displaystyle\sum\limits")
    (Node ScopeRoot [Node ItemCmd [Leaf ClauseCommandName (tx "\displaystyle"); Node ClauseArgument [Node ItemCmd [Node ClauseArgument [Node ItemCmd [Leaf ClauseCommandName (tx "\sum")]]; Leaf ClauseCommandName (tx "\limits")]]]]);
  check_tree (tx "\displaystyle x_1")
    (Node ScopeRoot [Node ItemCmd [Leaf ClauseCommandName (tx "\displaystyle"); Node ClauseArgument [Leaf TokenWhiteSpace (tx " "); Node ItemAttachComponent [Node ClauseArgument [Node ItemText [Leaf TokenWord (tx "x")]]; Leaf TokenUnderscore (tx "_"); Leaf TokenWord (tx "1")]]]]);
  check_tree (tx "\displaystyle x'")
    (Node ScopeRoot [Node ItemCmd [Leaf ClauseCommandName (tx "\displaystyle"); Node ClauseArgument [Leaf TokenWhiteSpace (tx " "); Node ItemAttachComponent [Node ClauseArgument [Node ItemText [Leaf TokenWord (tx "x")]]; Leaf TokenApostrophe (tx "'")]]]]);
  check_tree (tx "\displaystyle\limits")
    (Node ScopeRoot [Node ItemCmd [Leaf ClauseCommandName (tx "\displaystyle"); Node ClauseArgument [Node ItemCmd [Node ClauseArgument []; Leaf ClauseCommandName (tx "\limits")]]]]);
  check_tree (tx "\displaystyle_1")
    (Node ScopeRoot [Node ItemCmd [Leaf ClauseCommandName (tx "\displaystyle"); Node ClauseArgument [Node ItemAttachComponent [Leaf TokenUnderscore (tx "_"); Leaf TokenWord (tx "1")]]]]);
  check_tree (tx "\displaystyle'")
    (Node ScopeRoot [Node ItemCmd [Leaf ClauseCommandName (tx "\displaystyle"); Node ClauseArgument [Leaf TokenApostrophe (tx "'")]]]);
  check_tree (tx "\displaystyle a b c")
    (Node ScopeRoot [Node ItemCmd [Leaf ClauseCommandName (tx "\displaystyle"); Node ClauseArgument [Leaf TokenWhiteSpace (tx " "); Node ItemText [Leaf TokenWord (tx "a"); Leaf TokenWhiteSpace (tx " "); Leaf TokenWord (tx "b"); Leaf TokenWhiteSpace (tx " "); Leaf TokenWord (tx "c")]]]]);
  check_tree (tx "\displaystyle \sum T")
    (Node ScopeRoot [Node ItemCmd [Leaf ClauseCommandName (tx "\displaystyle"); Node ClauseArgument [Leaf TokenWhiteSpace (tx " "); Node ItemCmd [Leaf ClauseCommandName (tx "\sum")]; Leaf TokenWhiteSpace (tx " "); Node ItemText [Leaf TokenWord (tx "T")]]]]);
  check_tree (tx "\displaystyle{\sum T}")
    (Node ScopeRoot [Node ItemCmd [Leaf ClauseCommandName (tx "\displaystyle"); Node ClauseArgument [Node ItemCurly [Leaf TokenLBrace (tx "{"); Node ItemCmd [Leaf ClauseCommandName (tx "\sum")]; Leaf TokenWhiteSpace (tx " "); Node ItemText [Leaf TokenWord (tx "T")]; Leaf TokenRBrace (tx "}")]]]]);
  check_tree (tx "\displaystyle[\sum T]")
    (Node ScopeRoot [Node ItemCmd [Leaf ClauseCommandName (tx "\displaystyle"); Node ClauseArgument [Leaf TokenLBracket (tx "["); Node ItemCmd [Leaf ClauseCommandName (tx "\sum")]; Leaf TokenWhiteSpace (tx " "); Node ItemText [Leaf TokenWord (tx "T")]; Leaf TokenRBracket (tx "]")]]]);
  check_tree (tx "a + {\displaystyle a b} c")
    (Node ScopeRoot [Node ItemText [Leaf TokenWord (tx "a"); Leaf TokenWhiteSpace (tx " "); Leaf TokenWord (tx "+"); Leaf TokenWhiteSpace (tx " ")]; Node ItemCurly [Leaf TokenLBrace (tx "{"); Node ItemCmd [Leaf ClauseCommandName (tx "\displaystyle"); Node ClauseArgument [Leaf TokenWhiteSpace (tx " "); Node ItemText [Leaf TokenWord (tx "a"); Leaf TokenWhiteSpace (tx " "); Leaf TokenWord (tx "b")]]]; Leaf TokenRBrace (tx "}")]; Leaf TokenWhiteSpace (tx " "); Node ItemText [Leaf TokenWord (tx "c")]]);
  check_tree (tx "T \displaystyle")
    (Node ScopeRoot [Node ItemText [Leaf TokenWord (tx "T"); Leaf TokenWhiteSpace (tx " ")]; Node ItemCmd [Leaf ClauseCommandName (tx "\displaystyle"); Node ClauseArgument []]]);
  check_tree (tx "\over_1")
    (Node ScopeRoot [Node ItemCmd [Node ClauseArgument []; Leaf ClauseCommandName (tx "\over"); Node ClauseArgument [Node ItemAttachComponent [Leaf TokenUnderscore (tx "_"); Leaf TokenWord (tx "1")]]]]);
  check_tree (tx "\over'")
    (Node ScopeRoot [Node ItemCmd [Node ClauseArgument []; Leaf ClauseCommandName (tx "\over"); Node ClauseArgument [Leaf TokenApostrophe (tx "'")]]]);
  check_tree (tx "a \over b'_1")
    (Node ScopeRoot [Node ItemCmd [Node ClauseArgument [Node ItemText [Leaf TokenWord (tx "a"); Leaf TokenWhiteSpace (tx " ")]]; Leaf ClauseCommandName (tx "\over"); Node ClauseArgument [Leaf TokenWhiteSpace (tx " "); Node ItemAttachComponent [Node ClauseArgument [Node ItemAttachComponent [Node ClauseArgument [Node ItemText [Leaf TokenWord (tx "b")]]; Leaf TokenApostrophe (tx "'")]]; Leaf TokenUnderscore (tx "_"); Leaf TokenWord (tx "1")]]]]);
  check_tree (tx "a \over b")
    (Node ScopeRoot [Node ItemCmd [Node ClauseArgument [Node ItemText [Leaf TokenWord (tx "a"); Leaf TokenWhiteSpace (tx " ")]]; Leaf ClauseCommandName (tx "\over"); Node ClauseArgument [Leaf TokenWhiteSpace (tx " "); Node ItemText [Leaf TokenWord (tx "b")]]]]);
  check_tree (tx "1 + {2 \over 3}")
    (Node ScopeRoot [Node ItemText [Leaf TokenWord (tx "1"); Leaf TokenWhiteSpace (tx " "); Leaf TokenWord (tx "+"); Leaf TokenWhiteSpace (tx " ")]; Node ItemCurly [Leaf TokenLBrace (tx "{"); Node ItemCmd [Node ClauseArgument [Node ItemText [Leaf TokenWord (tx "2"); Leaf TokenWhiteSpace (tx " ")]]; Leaf ClauseCommandName (tx "\over"); Node ClauseArgument [Leaf TokenWhiteSpace (tx " "); Node ItemText [Leaf TokenWord (tx "3")]]]; Leaf TokenRBrace (tx "}")]]);
  check_tree (tx "\begin{equation}\end{equation}")
    (Node ScopeRoot [Node ItemEnv [Node ItemBegin [Leaf TokenCommandSym (tx "equation")]; Node ItemEnd [Leaf TokenCommandSym (tx "equation")]]]);
  check_tree (tx "\begin{matrix}" ++ [10] ++ tx "a & b \\" ++ [10] ++ tx "c & d" ++ [10] ++ tx "\end{matrix}")
    (Node ScopeRoot [Node ItemEnv [Node ItemBegin [Leaf TokenCommandSym (tx "matrix")]; Leaf TokenLineBreak ([10]); Node ItemText [Leaf TokenWord (tx "a"); Leaf TokenWhiteSpace (tx " ")]; Leaf TokenAmpersand (tx "&"); Leaf TokenWhiteSpace (tx " "); Node ItemText [Leaf TokenWord (tx "b"); Leaf TokenWhiteSpace (tx " ")]; Leaf ItemNewLine (tx "\\"); Leaf TokenLineBreak ([10]); Node ItemText [Leaf TokenWord (tx "c"); Leaf TokenWhiteSpace (tx " ")]; Leaf TokenAmpersand (tx "&"); Leaf TokenWhiteSpace (tx " "); Node ItemText [Leaf TokenWord (tx "d"); Leaf TokenLineBreak ([10])]; Node ItemEnd [Leaf TokenCommandSym (tx "matrix")]]]);
  check_tree (tx "\begin{pmatrix}\\\end{pmatrix}")
    (Node ScopeRoot [Node ItemEnv [Node ItemBegin [Leaf TokenCommandSym (tx "pmatrix")]; Leaf ItemNewLine (tx "\\"); Node ItemEnd [Leaf TokenCommandSym (tx "pmatrix")]]]);
  check_tree (tx "\begin{pmatrix}x{\\}x\end{pmatrix}")
    (Node ScopeRoot [Node ItemEnv [Node ItemBegin [Leaf TokenCommandSym (tx "pmatrix")]; Node ItemText [Leaf TokenWord (tx "x")]; Node ItemCurly [Leaf TokenLBrace (tx "{"); Leaf ItemNewLine (tx "\\"); Leaf TokenRBrace (tx "}")]; Node ItemText [Leaf TokenWord (tx "x")]; Node ItemEnd [Leaf TokenCommandSym (tx "pmatrix")]]]);
  check_tree (tx "\begin{array}{lc}" ++ [10] ++ tx "a & b \\" ++ [10] ++ tx "c & d" ++ [10] ++ tx "\end{array}")
    (Node ScopeRoot [Node ItemEnv [Node ItemBegin [Leaf TokenCommandSym (tx "array"); Node ClauseArgument [Node ItemCurly [Leaf TokenLBrace (tx "{"); Node ItemText [Leaf TokenWord (tx "lc")]; Leaf TokenRBrace (tx "}")]]]; Leaf TokenLineBreak ([10]); Node ItemText [Leaf TokenWord (tx "a"); Leaf TokenWhiteSpace (tx " ")]; Leaf TokenAmpersand (tx "&"); Leaf TokenWhiteSpace (tx " "); Node ItemText [Leaf TokenWord (tx "b"); Leaf TokenWhiteSpace (tx " ")]; Leaf ItemNewLine (tx "\\"); Leaf TokenLineBreak ([10]); Node ItemText [Leaf TokenWord (tx "c"); Leaf TokenWhiteSpace (tx " ")]; Leaf TokenAmpersand (tx "&"); Leaf TokenWhiteSpace (tx " "); Node ItemText [Leaf TokenWord (tx "d"); Leaf TokenLineBreak ([10])]; Node ItemEnd [Leaf TokenCommandSym (tx "array")]]]);
  check_tree (tx "\begin{bmatrix}A&B\end{bmatrix}")
    (Node ScopeRoot [Node ItemEnv [Node ItemBegin [Leaf TokenCommandSym (tx "bmatrix")]; Node ItemText [Leaf TokenWord (tx "A")]; Leaf TokenAmpersand (tx "&"); Node ItemText [Leaf TokenWord (tx "B")]; Node ItemEnd [Leaf TokenCommandSym (tx "bmatrix")]]]);
  check_tree ([10] ++ tx "    \begin{figure}[ht]" ++ [10] ++ tx "        \centering" ++ [10] ++ tx "        \includegraphics[width=0.5\textwidth]{example-image}" ++ [10] ++ tx "        \caption{This is an example image.}" ++ [10] ++ tx "        \label{fig:example}" ++ [10] ++ tx "    \end{figure}" ++ [10] ++ tx "    ")
    (Node ScopeRoot [Leaf TokenLineBreak ([10]); Leaf TokenWhiteSpace (tx "    "); Node ItemEnv [Node ItemBegin [Leaf TokenCommandSym (tx "figure"); Node ClauseArgument [Node ItemBracket [Leaf TokenLBracket (tx "["); Node ItemText [Leaf TokenWord (tx "ht")]; Leaf TokenRBracket (tx "]")]]]; Leaf TokenLineBreak ([10]); Leaf TokenWhiteSpace (tx "        "); Node ItemCmd [Leaf ClauseCommandName (tx "\centering")]; Leaf TokenLineBreak ([10]); Leaf TokenWhiteSpace (tx "        "); Node ItemCmd [Leaf ClauseCommandName (tx "\includegraphics"); Node ClauseArgument [Node ItemBracket [Leaf TokenLBracket (tx "["); Node ItemText [Leaf TokenWord (tx "width=0.5")]; Node ItemCmd [Leaf ClauseCommandName (tx "\textwidth")]; Leaf TokenRBracket (tx "]")]]; Node ClauseArgument [Node ItemCurly [Leaf TokenLBrace (tx "{"); Node ItemText [Leaf TokenWord (tx "example-image")]; Leaf TokenRBrace (tx "}")]]]; Leaf TokenLineBreak ([10]); Leaf TokenWhiteSpace (tx "        "); Node ItemCmd [Leaf ClauseCommandName (tx "\caption"); Node ClauseArgument [Node ItemCurly [Leaf TokenLBrace (tx "{"); Node ItemText [Leaf TokenWord (tx "This"); Leaf TokenWhiteSpace (tx " "); Leaf TokenWord (tx "is"); Leaf TokenWhiteSpace (tx " "); Leaf TokenWord (tx "an"); Leaf TokenWhiteSpace (tx " "); Leaf TokenWord (tx "example"); Leaf TokenWhiteSpace (tx " "); Leaf TokenWord (tx "image.")]; Leaf TokenRBrace (tx "}")]]]; Leaf TokenLineBreak ([10]); Leaf TokenWhiteSpace (tx "        "); Node ItemCmd [Leaf ClauseCommandName (tx "\label"); Node ClauseArgument [Node ItemCurly [Leaf TokenLBrace (tx "{"); Node ItemText [Leaf TokenWord (tx "fig:example")]; Leaf TokenRBrace (tx "}")]]]; Leaf TokenLineBreak ([10]); Leaf TokenWhiteSpace (tx "    "); Node ItemEnd [Leaf TokenCommandSym (tx "figure")]]; Leaf TokenLineBreak ([10]); Leaf TokenWhiteSpace (tx "    ")]);
  check_tree ([10] ++ tx "    \begin{table}[ht]" ++ [10] ++ tx "        \centering" ++ [10] ++ tx "        \begin{tabular}{|c|c|}" ++ [10] ++ tx "            \hline" ++ [10] ++ tx "            \textbf{Name} & \textbf{Age} \\" ++ [10] ++ tx "            \hline" ++ [10] ++ tx "            John & 25 \\" ++ [10] ++ tx "            Jane & 22 \\" ++ [10] ++ tx "            \hline" ++ [10] ++ tx "        \end{tabular}" ++ [10] ++ tx "        \caption{This is an example table.}" ++ [10] ++ tx "        \label{tab:example}" ++ [10] ++ tx "    \end{table}" ++ [10] ++ tx "    ")
    (Node ScopeRoot [Leaf TokenLineBreak ([10]); Leaf TokenWhiteSpace (tx "    "); Node ItemEnv [Node ItemBegin [Leaf TokenCommandSym (tx "table"); Node ClauseArgument [Node ItemBracket [Leaf TokenLBracket (tx "["); Node ItemText [Leaf TokenWord (tx "ht")]; Leaf TokenRBracket (tx "]")]]]; Leaf TokenLineBreak ([10]); Leaf TokenWhiteSpace (tx "        "); Node ItemCmd [Leaf ClauseCommandName (tx "\centering")]; Leaf TokenLineBreak ([10]); Leaf TokenWhiteSpace (tx "        "); Node ItemEnv [Node ItemBegin [Leaf TokenCommandSym (tx "tabular"); Node ClauseArgument [Node ItemCurly [Leaf TokenLBrace (tx "{"); Node ItemText [Leaf TokenWord (tx "|c|c|")]; Leaf TokenRBrace (tx "}")]]]; Leaf TokenLineBreak ([10]); Leaf TokenWhiteSpace (tx "            "); Node ItemCmd [Leaf ClauseCommandName (tx "\hline")]; Leaf TokenLineBreak ([10]); Leaf TokenWhiteSpace (tx "            "); Node ItemCmd [Leaf ClauseCommandName (tx "\textbf"); Node ClauseArgument [Node ItemCurly [Leaf TokenLBrace (tx "{"); Node ItemText [Leaf TokenWord (tx "Name")]; Leaf TokenRBrace (tx "}")]]]; Leaf TokenWhiteSpace (tx " "); Leaf TokenAmpersand (tx "&"); Leaf TokenWhiteSpace (tx " "); Node ItemCmd [Leaf ClauseCommandName (tx "\textbf"); Node ClauseArgument [Node ItemCurly [Leaf TokenLBrace (tx "{"); Node ItemText [Leaf TokenWord (tx "Age")]; Leaf TokenRBrace (tx "}")]]]; Leaf TokenWhiteSpace (tx " "); Leaf ItemNewLine (tx "\\"); Leaf TokenLineBreak ([10]); Leaf TokenWhiteSpace (tx "            "); Node ItemCmd [Leaf ClauseCommandName (tx "\hline")]; Leaf TokenLineBreak ([10]); Leaf TokenWhiteSpace (tx "            "); Node ItemText [Leaf TokenWord (tx "John"); Leaf TokenWhiteSpace (tx " ")]; Leaf TokenAmpersand (tx "&"); Leaf TokenWhiteSpace (tx " "); Node ItemText [Leaf TokenWord (tx "25"); Leaf TokenWhiteSpace (tx " ")]; Leaf ItemNewLine (tx "\\"); Leaf TokenLineBreak ([10]); Leaf TokenWhiteSpace (tx "            "); Node ItemText [Leaf TokenWord (tx "Jane"); Leaf TokenWhiteSpace (tx " ")]; Leaf TokenAmpersand (tx "&"); Leaf TokenWhiteSpace (tx " "); Node ItemText [Leaf TokenWord (tx "22"); Leaf TokenWhiteSpace (tx " ")]; Leaf ItemNewLine (tx "\\"); Leaf TokenLineBreak ([10]); Leaf TokenWhiteSpace (tx "            "); Node ItemCmd [Leaf ClauseCommandName (tx "\hline")]; Leaf TokenLineBreak ([10]); Leaf TokenWhiteSpace (tx "        "); Node ItemEnd [Leaf TokenCommandSym (tx "tabular")]]; Leaf TokenLineBreak ([10]); Leaf TokenWhiteSpace (tx "        "); Node ItemCmd [Leaf ClauseCommandName (tx "\caption"); Node ClauseArgument [Node ItemCurly [Leaf TokenLBrace (tx "{"); Node ItemText [Leaf TokenWord (tx "This"); Leaf TokenWhiteSpace (tx " "); Leaf TokenWord (tx "is"); Leaf TokenWhiteSpace (tx " "); Leaf TokenWord (tx "an"); Leaf TokenWhiteSpace (tx " "); Leaf TokenWord (tx "example"); Leaf TokenWhiteSpace (tx " "); Leaf TokenWord (tx "table.")]; Leaf TokenRBrace (tx "}")]]]; Leaf TokenLineBreak ([10]); Leaf TokenWhiteSpace (tx "        "); Node ItemCmd [Leaf ClauseCommandName (tx "\label"); Node ClauseArgument [Node ItemCurly [Leaf TokenLBrace (tx "{"); Node ItemText [Leaf TokenWord (tx "tab:example")]; Leaf TokenRBrace (tx "}")]]]; Leaf TokenLineBreak ([10]); Leaf TokenWhiteSpace (tx "    "); Node ItemEnd [Leaf TokenCommandSym (tx "table")]]; Leaf TokenLineBreak ([10]); Leaf TokenWhiteSpace (tx "    ")]);
  check_tree (tx "\[\]")
    (Node ScopeRoot [Node ItemFormula [Leaf TokenBeginMath (tx "\["); Leaf TokenEndMath (tx "\]")]]);
  check_tree (tx "\[\[\]\]")
    (Node ScopeRoot [Node ItemFormula [Leaf TokenBeginMath (tx "\["); Node ItemFormula [Leaf TokenBeginMath (tx "\["); Leaf TokenEndMath (tx "\]")]; Leaf TokenEndMath (tx "\]")]]);
  check_tree (tx "\[\(\)\]")
    (Node ScopeRoot [Node ItemFormula [Leaf TokenBeginMath (tx "\["); Node ItemFormula [Leaf TokenBeginMath (tx "\("); Leaf TokenEndMath (tx "\)")]; Leaf TokenEndMath (tx "\]")]]);
  check_tree (tx "\[\)\(\]")
    (Node ScopeRoot [Node ItemFormula [Leaf TokenBeginMath (tx "\["); Leaf TokenEndMath (tx "\)")]; Node ItemFormula [Leaf TokenBeginMath (tx "\("); Leaf TokenEndMath (tx "\]")]]);
  check_tree (tx "$[)$ test")
    (Node ScopeRoot [Node ItemFormula [Leaf TokenDollar (tx "$"); Leaf TokenLBracket (tx "["); Leaf TokenRParen (tx ")"); Leaf TokenDollar (tx "$")]; Leaf TokenWhiteSpace (tx " "); Node ItemText [Leaf TokenWord (tx "test")]]);
  check_tree (tx "${$}")
    (Node ScopeRoot [Node ItemFormula [Leaf TokenDollar (tx "$"); Node ItemCurly [Leaf TokenLBrace (tx "{"); Node ItemFormula [Leaf TokenDollar (tx "$")]; Leaf TokenRBrace (tx "}")]]]);
  check_tree (tx "{$}$")
    (Node ScopeRoot [Node ItemCurly [Leaf TokenLBrace (tx "{"); Node ItemFormula [Leaf TokenDollar (tx "$")]; Leaf TokenRBrace (tx "}")]; Node ItemFormula [Leaf TokenDollar (tx "$")]]);
  check_tree (tx "\begin{array}$\end{array}$")
    (Node ScopeRoot [Node ItemEnv [Node ItemBegin [Leaf TokenCommandSym (tx "array"); Node ClauseArgument [Node ItemFormula [Leaf TokenDollar (tx "$")]]]; Node ItemEnd [Leaf TokenCommandSym (tx "array")]]; Node ItemFormula [Leaf TokenDollar (tx "$")]]);
  check_tree (tx "$\begin{array}$\end{array}")
    (Node ScopeRoot [Node ItemFormula [Leaf TokenDollar (tx "$"); Node ItemEnv [Node ItemBegin [Leaf TokenCommandSym (tx "array")]; Node ItemFormula [Leaf TokenDollar (tx "$")]; Node ItemEnd [Leaf TokenCommandSym (tx "array")]]]]);
  check_tree (tx "\left\0")
    (Node ScopeRoot [Node ItemLR [Node ClauseLR [Leaf ClauseCommandName (tx "\left"); Leaf TokenCommandSym (tx "\0")]]]);
  check_tree (tx "\end{}")
    (Node ScopeRoot [Node TokenError [Leaf TokenCommandSym []]]);
  check_tree (tx "\left.\right.")
    (Node ScopeRoot [Node ItemLR [Node ClauseLR [Leaf ClauseCommandName (tx "\left"); Leaf TokenWord (tx ".")]; Node ClauseLR [Leaf ClauseCommandName (tx "\right"); Leaf TokenWord (tx ".")]]]);
  check_tree (tx "\left.a\right.")
    (Node ScopeRoot [Node ItemLR [Node ClauseLR [Leaf ClauseCommandName (tx "\left"); Leaf TokenWord (tx ".")]; Node ItemText [Leaf TokenWord (tx "a")]; Node ClauseLR [Leaf ClauseCommandName (tx "\right"); Leaf TokenWord (tx ".")]]]);
  check_tree (tx "\left.    \right] ,")
    (Node ScopeRoot [Node ItemLR [Node ClauseLR [Leaf ClauseCommandName (tx "\left"); Leaf TokenWord (tx ".")]; Leaf TokenWhiteSpace (tx "    "); Node ClauseLR [Leaf ClauseCommandName (tx "\right"); Leaf TokenRBracket (tx "]")]]; Leaf TokenWhiteSpace (tx " "); Node ItemText [Leaf TokenComma (tx ",")]]);
  check_tree (tx "\left  . a \right    \|")
    (Node ScopeRoot [Node ItemLR [Node ClauseLR [Leaf ClauseCommandName (tx "\left"); Leaf TokenWhiteSpace (tx "  "); Leaf TokenWord (tx ".")]; Leaf TokenWhiteSpace (tx " "); Node ItemText [Leaf TokenWord (tx "a"); Leaf TokenWhiteSpace (tx " ")]; Node ClauseLR [Leaf ClauseCommandName (tx "\right"); Leaf TokenWhiteSpace (tx "    "); Leaf TokenCommandSym (tx "\|")]]]);
  check_tree (tx "\left\langle a\right\|")
    (Node ScopeRoot [Node ItemLR [Node ClauseLR [Leaf ClauseCommandName (tx "\left"); Leaf TokenCommandSym (tx "\langle")]; Leaf TokenWhiteSpace (tx " "); Node ItemText [Leaf TokenWord (tx "a")]; Node ClauseLR [Leaf ClauseCommandName (tx "\right"); Leaf TokenCommandSym (tx "\|")]]]);
  check_tree (tx "\left{.}a\right{.}")
    (Node ScopeRoot [Node ItemLR [Node ClauseLR [Leaf ClauseCommandName (tx "\left"); Leaf TokenLBrace (tx "{")]; Node ItemText [Leaf TokenWord (tx ".")]]; Node TokenError [Leaf TokenRBrace (tx "}")]; Node ItemText [Leaf TokenWord (tx "a")]; Node ItemCmd [Leaf ClauseCommandName (tx "\right")]; Node ItemCurly [Leaf TokenLBrace (tx "{"); Node ItemText [Leaf TokenWord (tx ".")]; Leaf TokenRBrace (tx "}")]]);
  check_tree (tx "\begin{equation}\left.\right\end{equation}")
    (Node ScopeRoot [Node ItemEnv [Node ItemBegin [Leaf TokenCommandSym (tx "equation")]; Node ItemLR [Node ClauseLR [Leaf ClauseCommandName (tx "\left"); Leaf TokenWord (tx ".")]; Node ClauseLR [Leaf ClauseCommandName (tx "\right")]]; Node ItemEnd [Leaf TokenCommandSym (tx "equation")]]]);
  check_tree (tx "\begin{equation}\left\right\end{equation}")
    (Node ScopeRoot [Node ItemEnv [Node ItemBegin [Leaf TokenCommandSym (tx "equation")]; Node ItemLR [Node ClauseLR [Leaf ClauseCommandName (tx "\left")]; Node ClauseLR [Leaf ClauseCommandName (tx "\right")]]; Node ItemEnd [Leaf TokenCommandSym (tx "equation")]]]);
  check_tree ([10] ++ tx "    \begin{tabular}{|c|c|}" ++ [10] ++ tx "        \hline" ++ [10] ++ tx "        \textbf{Name} & \textbf{Age} \\" ++ [10] ++ tx "        \hline" ++ [10] ++ tx "        John & 25 \\" ++ [10] ++ tx "        Jane & 22 \\" ++ [10] ++ tx "        \hline" ++ [10] ++ tx "    \end{tabular}" ++ [10] ++ tx "    ")
    (Node ScopeRoot [Leaf TokenLineBreak ([10]); Leaf TokenWhiteSpace (tx "    "); Node ItemEnv [Node ItemBegin [Leaf TokenCommandSym (tx "tabular"); Node ClauseArgument [Node ItemCurly [Leaf TokenLBrace (tx "{"); Node ItemText [Leaf TokenWord (tx "|c|c|")]; Leaf TokenRBrace (tx "}")]]]; Leaf TokenLineBreak ([10]); Leaf TokenWhiteSpace (tx "        "); Node ItemCmd [Leaf ClauseCommandName (tx "\hline")]; Leaf TokenLineBreak ([10]); Leaf TokenWhiteSpace (tx "        "); Node ItemCmd [Leaf ClauseCommandName (tx "\textbf"); Node ClauseArgument [Node ItemCurly [Leaf TokenLBrace (tx "{"); Node ItemText [Leaf TokenWord (tx "Name")]; Leaf TokenRBrace (tx "}")]]]; Leaf TokenWhiteSpace (tx " "); Leaf TokenAmpersand (tx "&"); Leaf TokenWhiteSpace (tx " "); Node ItemCmd [Leaf ClauseCommandName (tx "\textbf"); Node ClauseArgument [Node ItemCurly [Leaf TokenLBrace (tx "{"); Node ItemText [Leaf TokenWord (tx "Age")]; Leaf TokenRBrace (tx "}")]]]; Leaf TokenWhiteSpace (tx " "); Leaf ItemNewLine (tx "\\"); Leaf TokenLineBreak ([10]); Leaf TokenWhiteSpace (tx "        "); Node ItemCmd [Leaf ClauseCommandName (tx "\hline")]; Leaf TokenLineBreak ([10]); Leaf TokenWhiteSpace (tx "        "); Node ItemText [Leaf TokenWord (tx "John"); Leaf TokenWhiteSpace (tx " ")]; Leaf TokenAmpersand (tx "&"); Leaf TokenWhiteSpace (tx " "); Node ItemText [Leaf TokenWord (tx "25"); Leaf TokenWhiteSpace (tx " ")]; Leaf ItemNewLine (tx "\\"); Leaf TokenLineBreak ([10]); Leaf TokenWhiteSpace (tx "        "); Node ItemText [Leaf TokenWord (tx "Jane"); Leaf TokenWhiteSpace (tx " ")]; Leaf TokenAmpersand (tx "&"); Leaf TokenWhiteSpace (tx " "); Node ItemText [Leaf TokenWord (tx "22"); Leaf TokenWhiteSpace (tx " ")]; Leaf ItemNewLine (tx "\\"); Leaf TokenLineBreak ([10]); Leaf TokenWhiteSpace (tx "        "); Node ItemCmd [Leaf ClauseCommandName (tx "\hline")]; Leaf TokenLineBreak ([10]); Leaf TokenWhiteSpace (tx "    "); Node ItemEnd [Leaf TokenCommandSym (tx "tabular")]]; Leaf TokenLineBreak ([10]); Leaf TokenWhiteSpace (tx "    ")]);
  check_tree (tx "a \mathbf{strong} text")
    (Node ScopeRoot [Node ItemText [Leaf TokenWord (tx "a"); Leaf TokenWhiteSpace (tx " ")]; Node ItemCmd [Leaf ClauseCommandName (tx "\mathbf"); Node ClauseArgument [Node ItemCurly [Leaf TokenLBrace (tx "{"); Node ItemText [Leaf TokenWord (tx "strong")]; Leaf TokenRBrace (tx "}")]]]; Leaf TokenWhiteSpace (tx " "); Node ItemText [Leaf TokenWord (tx "text")]]);
  check_tree (tx "\frac { 1 } { 2 }")
    (Node ScopeRoot [Node ItemCmd [Leaf ClauseCommandName (tx "\frac"); Node ClauseArgument [Node ItemCurly [Leaf TokenLBrace (tx "{"); Leaf TokenWhiteSpace (tx " "); Node ItemText [Leaf TokenWord (tx "1"); Leaf TokenWhiteSpace (tx " ")]; Leaf TokenRBrace (tx "}")]]; Node ClauseArgument [Node ItemCurly [Leaf TokenLBrace (tx "{"); Leaf TokenWhiteSpace (tx " "); Node ItemText [Leaf TokenWord (tx "2"); Leaf TokenWhiteSpace (tx " ")]; Leaf TokenRBrace (tx "}")]]]]);
  check_tree (tx "a {\displaystyle text } b")
    (Node ScopeRoot [Node ItemText [Leaf TokenWord (tx "a"); Leaf TokenWhiteSpace (tx " ")]; Node ItemCurly [Leaf TokenLBrace (tx "{"); Node ItemCmd [Leaf ClauseCommandName (tx "\displaystyle"); Node ClauseArgument [Leaf TokenWhiteSpace (tx " "); Node ItemText [Leaf TokenWord (tx "text"); Leaf TokenWhiteSpace (tx " ")]]]; Leaf TokenRBrace (tx "}")]; Leaf TokenWhiteSpace (tx " "); Node ItemText [Leaf TokenWord (tx "b")]]);
  check_tree (tx "\displaystyle text ")
    (Node ScopeRoot [Node ItemCmd [Leaf ClauseCommandName (tx "\displaystyle"); Node ClauseArgument [Leaf TokenWhiteSpace (tx " "); Node ItemText [Leaf TokenWord (tx "text"); Leaf TokenWhiteSpace (tx " ")]]]]);
  check_tree (tx "\displaystyle {text} ")
    (Node ScopeRoot [Node ItemCmd [Leaf ClauseCommandName (tx "\displaystyle"); Node ClauseArgument [Leaf TokenWhiteSpace (tx " "); Node ItemCurly [Leaf TokenLBrace (tx "{"); Node ItemText [Leaf TokenWord (tx "text")]; Leaf TokenRBrace (tx "}")]; Leaf TokenWhiteSpace (tx " ")]]]);
  check_tree (tx "\displaystyle {\mathrm {text}} ")
    (Node ScopeRoot [Node ItemCmd [Leaf ClauseCommandName (tx "\displaystyle"); Node ClauseArgument [Leaf TokenWhiteSpace (tx " "); Node ItemCurly [Leaf TokenLBrace (tx "{"); Node ItemCmd [Leaf ClauseCommandName (tx "\mathrm"); Node ClauseArgument [Node ItemCurly [Leaf TokenLBrace (tx "{"); Node ItemText [Leaf TokenWord (tx "text")]; Leaf TokenRBrace (tx "}")]]]; Leaf TokenRBrace (tx "}")]; Leaf TokenWhiteSpace (tx " ")]]])
].
Definition streams : list bool := [
  check_toks (tx "\begin{eq}\end{eq}") [((CommandName BeginEnvironment), (tx "eq")); ((CommandName EndEnvironment), (tx "eq"))];
  check_toks (tx "\begin{align*}\end{align*}") [((CommandName BeginEnvironment), (tx "align*")); ((CommandName EndEnvironment), (tx "align*"))];
  check_toks (tx "hello world") [(Word, (tx "hello")); (Whitespace, (tx " ")); (Word, (tx "world"))];
  check_toks (tx "{a#1a}") [((TLeft Curly), (tx "{")); (Word, (tx "a")); (Hash, (tx "#")); (Word, (tx "1a")); ((TRight Curly), (tx "}"))];
  check_toks (tx "\AtEndOfClass{code}") [((CommandName Generic), (tx "\AtEndOfClass")); ((TLeft Curly), (tx "{")); (Word, (tx "code")); ((TRight Curly), (tx "}"))];
  check_toks (tx "\newcommand{\f}{f}\f") [(Word, (tx "f"))];
  check_toks (tx "\newcommand{\f}[2]{#1f(#2)}\f\hat xy") [((CommandName Generic), (tx "\hat")); (Word, (tx "f")); ((TLeft Paren), (tx "(")); (Word, (tx "x")); ((TRight Paren), (tx ")")); (Word, (tx "y"))];
  check_toks (tx "\newenvironment{f}{begin}{end}\begin{f}test\end{f}") [(Word, (tx "begin")); (Word, (tx "test")); (Word, (tx "end"))];
  check_toks (tx "\iffalse Block Comment\fi") [((CommandName (CIf IfFalse)), (tx "\iffalse")); (Whitespace, (tx " ")); (Word, (tx "Block")); (Whitespace, (tx " ")); (Word, (tx "Comment")); ((CommandName CEndIf), (tx "\fi"))];
  check_toks (tx "\iftypst\alpha x\fi") [((CommandName (CIf IfTypst)), (tx "\iftypst")); ((CommandName Generic), (tx "\alpha")); (Whitespace, (tx " ")); (Word, (tx "x")); ((CommandName CEndIf), (tx "\fi"))];
  check_toks (tx "\iftypst\alpha x\else\LaTeX code\fi") [((CommandName (CIf IfTypst)), (tx "\iftypst")); ((CommandName Generic), (tx "\alpha")); (Whitespace, (tx " ")); (Word, (tx "x")); ((CommandName CEndIf), (tx "\fi"))];
  check_toks (tx "\iftypst\alpha x\else\LaTeX code\else\alpha x2\fi") [((CommandName (CIf IfTypst)), (tx "\iftypst")); ((CommandName Generic), (tx "\alpha")); (Whitespace, (tx " ")); (Word, (tx "x")); ((CommandName Generic), (tx "\alpha")); (Whitespace, (tx " ")); (Word, (tx "x2")); ((CommandName CEndIf), (tx "\fi"))];
  check_toks (tx "\ifhbox\alpha x\fi") [((CommandName (CIf IfHBox)), (tx "\ifhbox")); ((CommandName Generic), (tx "\alpha")); (Whitespace, (tx " ")); (Word, (tx "x")); ((CommandName CEndIf), (tx "\fi"))];
  check_toks (tx "\iftrue\alpha x\fi") [((CommandName Generic), (tx "\alpha")); (Whitespace, (tx " ")); (Word, (tx "x"))];
  check_toks (tx "\iftrue\alpha x \iftrue\alpha x2\fi\fi") [((CommandName Generic), (tx "\alpha")); (Whitespace, (tx " ")); (Word, (tx "x")); (Whitespace, (tx " ")); ((CommandName Generic), (tx "\alpha")); (Whitespace, (tx " ")); (Word, (tx "x2"))];
  check_toks (tx "\iftrue\alpha x \iffalse\alpha x2\fi\fi") [((CommandName Generic), (tx "\alpha")); (Whitespace, (tx " ")); (Word, (tx "x")); (Whitespace, (tx " ")); ((CommandName (CIf IfFalse)), (tx "\iffalse")); ((CommandName Generic), (tx "\alpha")); (Whitespace, (tx " ")); (Word, (tx "x2")); ((CommandName CEndIf), (tx "\fi"))];
  check_toks (tx "\iffalse\alpha x \iftrue\alpha x2\fi\fi") [((CommandName (CIf IfFalse)), (tx "\iffalse")); ((CommandName Generic), (tx "\alpha")); (Whitespace, (tx " ")); (Word, (tx "x")); (Whitespace, (tx " ")); ((CommandName Generic), (tx "\alpha")); (Whitespace, (tx " ")); (Word, (tx "x2")); ((CommandName CEndIf), (tx "\fi"))];
  check_toks (tx "\iffalse\alpha x \ifhbox\alpha x2\fi\fi") [((CommandName (CIf IfFalse)), (tx "\iffalse")); ((CommandName Generic), (tx "\alpha")); (Whitespace, (tx " ")); (Word, (tx "x")); (Whitespace, (tx " ")); ((CommandName (CIf IfHBox)), (tx "\ifhbox")); ((CommandName Generic), (tx "\alpha")); (Whitespace, (tx " ")); (Word, (tx "x2")); ((CommandName CEndIf), (tx "\fi")); ((CommandName CEndIf), (tx "\fi"))];
  check_toks (tx "\iffalse Block Comment\else \alpha x\fi") [((CommandName (CIf IfFalse)), (tx "\iffalse")); (Whitespace, (tx " ")); (Word, (tx "Block")); (Whitespace, (tx " ")); (Word, (tx "Comment")); ((CommandName CEndIf), (tx "\fi")); (Whitespace, (tx " ")); ((CommandName Generic), (tx "\alpha")); (Whitespace, (tx " ")); (Word, (tx "x"))];
  check_toks (tx "\iffalse Block Comment\else \alpha x\else Ignored\else Show Me\fi") [((CommandName (CIf IfFalse)), (tx "\iffalse")); (Whitespace, (tx " ")); (Word, (tx "Block")); (Whitespace, (tx " ")); (Word, (tx "Comment")); ((CommandName CEndIf), (tx "\fi")); (Whitespace, (tx " ")); ((CommandName Generic), (tx "\alpha")); (Whitespace, (tx " ")); (Word, (tx "x")); (Whitespace, (tx " ")); (Word, (tx "Show")); (Whitespace, (tx " ")); (Word, (tx "Me"))];
  check_toks (tx "\newcommand{\DeclareMathDelimit}[2]{\newcommand{#1}[1]{\left#2\mitexrecurse{#1}\right#2}}\DeclareMathDelimit{\abs}{\vert}\abs{abc}") [((CommandName CLeft), (tx "\left")); ((CommandName Generic), (tx "\vert")); (Word, (tx "abc")); ((CommandName CRight), (tx "\right")); ((CommandName Generic), (tx "\vert"))]
].

Example conversions_pass : forallb (fun b => b) conversions = true.
Proof. vm_compute. reflexivity. Qed.
Example trees_pass : forallb (fun b => b) trees = true.
Proof. vm_compute. reflexivity. Qed.
Example streams_pass : forallb (fun b => b) streams = true.
Proof. vm_compute. reflexivity. Qed.
