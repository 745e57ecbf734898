(** * SpecSymbol: the characters and classes of the symbol commands.

    From the list of symbols of the LaTeX package unicode-math, to which the
    README of the crate refers, and from the classes of plain TeX, amssymb, colonequals and mathtools;
    written without the tables of the code. Commands for which these sources
    differ are left out. *)

From Coq Require Import Ascii String List NArith ZArith Bool.
From Verif Require Import Base Float32 Event.
Import ListNotations.
Open Scope N_scope.

Inductive class := Ord | Bin | Rel | Punct | Opening | Closing | Fence | SmallBin | SmallRel.

(** The event of a symbol. The documentation of [Content] (src/event.rs:93-160)
    says which are small variants: [\smallsetminus], [\shortparallel], ... *)
Definition symbol_event (k : class) (c : char) : event :=
  EvContent match k with
  | Ord => COrdinary c false
  | Bin => CBinaryOp c false
  | Rel => CRelation c None false
  | Punct => CPunctuation c
  | Opening => CDelimiter c None DOpen
  | Closing => CDelimiter c None DClose
  | Fence => CDelimiter c None DFence
  | SmallBin => CBinaryOp c true
  | SmallRel => CRelation c None true
  end.

Definition of_class (k : class) (l : list (string * N)) : list (str * event) :=
  map (fun p => (lit (fst p), symbol_event k (snd p))) l.

Definition ord_symbols : list (string * N) := [
  ("alpha"%string, 0x3B1); ("beta"%string, 0x3B2); ("gamma"%string, 0x3B3); ("delta"%string, 0x3B4); ("epsilon"%string, 0x3F5); ("zeta"%string, 0x3B6);
   ("eta"%string, 0x3B7); ("theta"%string, 0x3B8); ("iota"%string, 0x3B9); ("kappa"%string, 0x3BA); ("lambda"%string, 0x3BB); ("mu"%string, 0x3BC);
   ("nu"%string, 0x3BD); ("xi"%string, 0x3BE); ("pi"%string, 0x3C0); ("rho"%string, 0x3C1); ("sigma"%string, 0x3C3); ("tau"%string, 0x3C4);
   ("upsilon"%string, 0x3C5); ("phi"%string, 0x3D5); ("chi"%string, 0x3C7); ("psi"%string, 0x3C8); ("omega"%string, 0x3C9); ("omicron"%string, 0x3BF);
   ("Alpha"%string, 0x391); ("Beta"%string, 0x392); ("Gamma"%string, 0x393); ("Delta"%string, 0x394); ("Epsilon"%string, 0x395); ("Zeta"%string, 0x396);
   ("Eta"%string, 0x397); ("Theta"%string, 0x398); ("Iota"%string, 0x399); ("Kappa"%string, 0x39A); ("Lambda"%string, 0x39B); ("Mu"%string, 0x39C);
   ("Nu"%string, 0x39D); ("Xi"%string, 0x39E); ("Omicron"%string, 0x39F); ("Pi"%string, 0x3A0); ("Rho"%string, 0x3A1); ("Sigma"%string, 0x3A3);
   ("Tau"%string, 0x3A4); ("Upsilon"%string, 0x3A5); ("Phi"%string, 0x3A6); ("Chi"%string, 0x3A7); ("Psi"%string, 0x3A8); ("Omega"%string, 0x3A9);
   ("varepsilon"%string, 0x3B5); ("vartheta"%string, 0x3D1); ("varkappa"%string, 0x3F0); ("varrho"%string, 0x3F1); ("varsigma"%string, 0x3C2); ("varpi"%string, 0x3D6);
   ("varphi"%string, 0x3C6); ("digamma"%string, 0x3DD); ("backepsilon"%string, 0x3F6);
   ("varGamma"%string, 0x1D6E4); ("varDelta"%string, 0x1D6E5); ("varTheta"%string, 0x1D6E9); ("varLambda"%string, 0x1D6EC); ("varXi"%string, 0x1D6EF); ("varPi"%string, 0x1D6F1);
   ("varSigma"%string, 0x1D6F4); ("varUpsilon"%string, 0x1D6F6); ("varPhi"%string, 0x1D6F7); ("varPsi"%string, 0x1D6F9); ("varOmega"%string, 0x1D6FA);
   ("aleph"%string, 0x2135); ("beth"%string, 0x2136); ("gimel"%string, 0x2137); ("daleth"%string, 0x2138); ("eth"%string, 0xF0); ("ell"%string, 0x2113);
   ("nabla"%string, 0x2207); ("partial"%string, 0x2202); ("Finv"%string, 0x2132); ("Game"%string, 0x2141); ("hbar"%string, 0x210F); ("hslash"%string, 0x210F);
   ("imath"%string, 0x131); ("jmath"%string, 0x237); ("Im"%string, 0x2111); ("Re"%string, 0x211C); ("wp"%string, 0x2118); ("Bbbk"%string, 0x1D55C);
   ("Angstrom"%string, 0x212B); ("mho"%string, 0x2127);
   ("ldots"%string, 0x2026); ("cdots"%string, 0x22EF); ("ddots"%string, 0x22F1); ("vdots"%string, 0x22EE); ("infty"%string, 0x221E); ("checkmark"%string, 0x2713);
   ("angle"%string, 0x2220); ("measuredangle"%string, 0x2221); ("sphericalangle"%string, 0x2222); ("Box"%string, 0x25A1); ("square"%string, 0x25A1); ("blacksquare"%string, 0x25A0);
   ("top"%string, 0x22A4); ("bot"%string, 0x22A5); ("cent"%string, 0xA2); ("pounds"%string, 0xA3); ("yen"%string, 0xA5); ("euro"%string, 0x20AC);
   ("degree"%string, 0xB0);
   ("blacktriangle"%string, 0x25B2); ("blacktriangledown"%string, 0x25BC); ("blacktriangleleft"%string, 0x25C0); ("blacktriangleright"%string, 0x25B6); ("lozenge"%string, 0x25CA); ("blacklozenge"%string, 0x29EB);
   ("bigstar"%string, 0x2605); ("maltese"%string, 0x2720); ("P"%string, 0xB6); ("S"%string, 0xA7); ("copyright"%string, 0xA9); ("circledR"%string, 0xAE);
   ("circledS"%string, 0x24C8);
   ("clubsuit"%string, 0x2663); ("varclubsuit"%string, 0x2667); ("diamondsuit"%string, 0x2662); ("vardiamondsuit"%string, 0x2666); ("heartsuit"%string, 0x2661); ("varheartsuit"%string, 0x2665);
   ("spadesuit"%string, 0x2660); ("varspadesuit"%string, 0x2664);
   ("female"%string, 0x2640); ("male"%string, 0x2642); ("sun"%string, 0x263C); ("leftmoon"%string, 0x263E); ("rightmoon"%string, 0x263D); ("smiley"%string, 0x263A);
   ("flat"%string, 0x266D); ("natural"%string, 0x266E); ("sharp"%string, 0x266F); ("permil"%string, 0x2030); ("QED"%string, 0x220E); ("diameter"%string, 0x2300);
   ("triangle"%string, 0x25B3);
   ("prime"%string, 0x2032); ("dprime"%string, 0x2033); ("trprime"%string, 0x2034); ("qprime"%string, 0x2057); ("backprime"%string, 0x2035); ("backdprime"%string, 0x2036);
   ("backtrprime"%string, 0x2037);
   ("forall"%string, 0x2200); ("exists"%string, 0x2203); ("complement"%string, 0x2201); ("nexists"%string, 0x2204); ("neg"%string, 0xAC); ("lnot"%string, 0xAC);
   ("emptyset"%string, 0x2205); ("backslash"%string, 0x5C); ("#"%string, 0x23); ("%"%string, 0x25); ("&"%string, 0x26); ("$"%string, 0x24);
   ("_"%string, 0x5F);
   ("mathellipsis"%string, 0x2026); ("dotsc"%string, 0x2026); ("dotso"%string, 0x2026); ("dotsb"%string, 0x22EF); ("dotsm"%string, 0x22EF); ("dotsi"%string, 0x22EF); ("iddots"%string, 0x22F0); ("mathsterling"%string, 0xA3); ("diagup"%string, 0x2571); ("diagdown"%string, 0x2572); ("dag"%string, 0x2020); ("ddag"%string, 0x2021); ("Diamond"%string, 0x25C7); ("varnothing"%string, 0x2205)].

Definition bin_symbols : list (string * N) := [
  ("land"%string, 0x2227); ("wedge"%string, 0x2227); ("lor"%string, 0x2228); ("vee"%string, 0x2228); ("cap"%string, 0x2229); ("cup"%string, 0x222A);
   ("Cap"%string, 0x22D2); ("doublecap"%string, 0x22D2); ("Cup"%string, 0x22D3); ("sqcap"%string, 0x2293); ("sqcup"%string, 0x2294); ("uplus"%string, 0x228E);
   ("cdot"%string, 0x22C5); ("circ"%string, 0x2218); ("bullet"%string, 0x2219); ("star"%string, 0x22C6); ("diamond"%string, 0x22C4); ("setminus"%string, 0x2216);
   ("wr"%string, 0x2240); ("amalg"%string, 0x2A3F);
   ("circledast"%string, 0x229B); ("circledcirc"%string, 0x229A); ("circleddash"%string, 0x229D); ("circledequal"%string, 0x229C); ("bigcirc"%string, 0x25EF); ("leftthreetimes"%string, 0x22CB);
   ("rightthreetimes"%string, 0x22CC); ("ltimes"%string, 0x22C9); ("rtimes"%string, 0x22CA); ("lhd"%string, 0x22B2); ("rhd"%string, 0x22B3); ("unlhd"%string, 0x22B4);
   ("unrhd"%string, 0x22B5); ("lessdot"%string, 0x22D6); ("gtrdot"%string, 0x22D7);
   ("curlyvee"%string, 0x22CE); ("curlywedge"%string, 0x22CF); ("veebar"%string, 0x22BB); ("doublebarwedge"%string, 0x2A5E); ("sslash"%string, 0x2AFD); ("div"%string, 0xF7);
   ("mp"%string, 0x2213); ("pm"%string, 0xB1); ("times"%string, 0xD7); ("divideontimes"%string, 0x22C7); ("dotplus"%string, 0x2214); ("intercal"%string, 0x22BA);
   ("parr"%string, 0x214B);
   ("oplus"%string, 0x2295); ("ominus"%string, 0x2296); ("otimes"%string, 0x2297); ("oslash"%string, 0x2298); ("odot"%string, 0x2299); ("boxplus"%string, 0x229E);
   ("boxminus"%string, 0x229F); ("boxtimes"%string, 0x22A0); ("boxdot"%string, 0x22A1); ("Otimes"%string, 0x2A37); ("otimeshat"%string, 0x2A36); ("odiv"%string, 0x2A38);
   ("triangleplus"%string, 0x2A39); ("triangleminus"%string, 0x2A3A); ("triangletimes"%string, 0x2A3B);
   ("boxast"%string, 0x29C6); ("boxcircle"%string, 0x29C7); ("boxbox"%string, 0x29C8); ("circlehbar"%string, 0x29B5); ("circledvert"%string, 0x29B6); ("circledparallel"%string, 0x29B7);
   ("obslash"%string, 0x29B8); ("operp"%string, 0x29B9); ("olessthan"%string, 0x29C0); ("ogreaterthan"%string, 0x29C1); ("hourglass"%string, 0x29D6); ("blackhourglass"%string, 0x29D7);
   ("lozengeminus"%string, 0x27E0); ("obar"%string, 0x233D);
   ("centerdot"%string, 0xB7); ("dagger"%string, 0x2020); ("ddagger"%string, 0x2021); ("bigtriangleup"%string, 0x25B3); ("bigtriangledown"%string, 0x25BD); ("barwedge"%string, 0x22BC); ("ast"%string, 0x2217)].

Definition rel_symbols : list (string * N) := [
  ("asymp"%string, 0x224D); ("therefore"%string, 0x2234); ("because"%string, 0x2235); ("in"%string, 0x2208); ("isin"%string, 0x2208); ("ni"%string, 0x220B);
   ("owns"%string, 0x220B); ("notin"%string, 0x2209); ("notni"%string, 0x220C); ("subset"%string, 0x2282); ("supset"%string, 0x2283); ("subseteq"%string, 0x2286);
   ("supseteq"%string, 0x2287); ("subsetneq"%string, 0x228A); ("supsetneq"%string, 0x228B); ("nsubset"%string, 0x2284); ("nsupset"%string, 0x2285); ("nsubseteq"%string, 0x2288);
   ("nsupseteq"%string, 0x2289); ("subseteqq"%string, 0x2AC5); ("supseteqq"%string, 0x2AC6); ("subsetneqq"%string, 0x2ACB); ("supsetneqq"%string, 0x2ACC); ("Subset"%string, 0x22D0);
   ("Supset"%string, 0x22D1); ("sqsubset"%string, 0x228F); ("sqsupset"%string, 0x2290); ("sqsubseteq"%string, 0x2291); ("sqsupseteq"%string, 0x2292);
   ("mid"%string, 0x2223); ("nmid"%string, 0x2224); ("parallel"%string, 0x2225); ("nparallel"%string, 0x2226); ("perp"%string, 0x27C2); ("propto"%string, 0x221D);
   ("varpropto"%string, 0x221D); ("multimap"%string, 0x22B8); ("multimapinv"%string, 0x27DC); ("multimapboth"%string, 0x29DF); ("origof"%string, 0x22B6); ("imageof"%string, 0x22B7);
   ("between"%string, 0x226C); ("pitchfork"%string, 0x22D4); ("bowtie"%string, 0x22C8); ("Join"%string, 0x22C8); ("smile"%string, 0x2323); ("frown"%string, 0x2322);
   ("lt"%string, 0x3C); ("gt"%string, 0x3E); ("le"%string, 0x2264); ("leq"%string, 0x2264); ("ge"%string, 0x2265); ("geq"%string, 0x2265);
   ("leqq"%string, 0x2266); ("geqq"%string, 0x2267); ("lneqq"%string, 0x2268); ("gneqq"%string, 0x2269); ("ll"%string, 0x226A); ("gg"%string, 0x226B);
   ("lll"%string, 0x22D8); ("llless"%string, 0x22D8); ("ggg"%string, 0x22D9); ("gggtr"%string, 0x22D9); ("nless"%string, 0x226E); ("ngtr"%string, 0x226F);
   ("nleq"%string, 0x2270); ("ngeq"%string, 0x2271); ("lesssim"%string, 0x2272); ("gtrsim"%string, 0x2273); ("lessgtr"%string, 0x2276); ("gtrless"%string, 0x2277);
   ("leqslant"%string, 0x2A7D); ("geqslant"%string, 0x2A7E); ("lessapprox"%string, 0x2A85); ("gtrapprox"%string, 0x2A86); ("lneq"%string, 0x2A87); ("gneq"%string, 0x2A88);
   ("lnapprox"%string, 0x2A89); ("gnapprox"%string, 0x2A8A); ("lesseqqgtr"%string, 0x2A8B); ("gtreqqless"%string, 0x2A8C); ("lesseqgtr"%string, 0x22DA); ("gtreqless"%string, 0x22DB);
   ("eqslantless"%string, 0x2A95); ("eqslantgtr"%string, 0x2A96); ("lnsim"%string, 0x22E6); ("gnsim"%string, 0x22E7);
   ("prec"%string, 0x227A); ("succ"%string, 0x227B); ("preccurlyeq"%string, 0x227C); ("succcurlyeq"%string, 0x227D); ("precsim"%string, 0x227E); ("succsim"%string, 0x227F);
   ("nprec"%string, 0x2280); ("nsucc"%string, 0x2281); ("curlyeqprec"%string, 0x22DE); ("curlyeqsucc"%string, 0x22DF); ("preceq"%string, 0x2AAF); ("succeq"%string, 0x2AB0);
   ("precneqq"%string, 0x2AB5); ("succneqq"%string, 0x2AB6); ("precapprox"%string, 0x2AB7); ("succapprox"%string, 0x2AB8); ("precnapprox"%string, 0x2AB9); ("succnapprox"%string, 0x2ABA);
   ("precnsim"%string, 0x22E8); ("succnsim"%string, 0x22E9);
   ("sim"%string, 0x223C); ("nsim"%string, 0x2241); ("backsim"%string, 0x223D); ("eqsim"%string, 0x2242); ("simeq"%string, 0x2243); ("cong"%string, 0x2245);
   ("approx"%string, 0x2248); ("approxeq"%string, 0x224A); ("backcong"%string, 0x224C); ("bumpeq"%string, 0x224F); ("Bumpeq"%string, 0x224E); ("doteq"%string, 0x2250);
   ("Doteq"%string, 0x2251); ("doteqdot"%string, 0x2251); ("fallingdotseq"%string, 0x2252); ("risingdotseq"%string, 0x2253); ("coloneqq"%string, 0x2254); ("eqqcolon"%string, 0x2255);
   ("eqcirc"%string, 0x2256); ("circeq"%string, 0x2257); ("arceq"%string, 0x2258); ("wedgeq"%string, 0x2259); ("veeeq"%string, 0x225A); ("stareq"%string, 0x225B);
   ("triangleq"%string, 0x225C); ("eqdef"%string, 0x225D); ("measeq"%string, 0x225E); ("questeq"%string, 0x225F); ("ne"%string, 0x2260); ("neq"%string, 0x2260);
   ("equiv"%string, 0x2261); ("backsimeq"%string, 0x22CD); ("eqcolon"%string, 0x2239); ("dblcolon"%string, 0x2237); ("Coloneqq"%string, 0x2A74); ("eqeq"%string, 0x2A75);
   ("vdash"%string, 0x22A2); ("dashv"%string, 0x22A3); ("models"%string, 0x22A8); ("vDash"%string, 0x22A8); ("Vdash"%string, 0x22A9); ("Vvdash"%string, 0x22AA);
   ("nvdash"%string, 0x22AC); ("nvDash"%string, 0x22AD); ("nVdash"%string, 0x22AE); ("nVDash"%string, 0x22AF); ("vartriangleleft"%string, 0x22B2); ("vartriangleright"%string, 0x22B3);
   ("trianglelefteq"%string, 0x22B4); ("trianglerighteq"%string, 0x22B5); ("ntriangleleft"%string, 0x22EA); ("ntriangleright"%string, 0x22EB); ("ntrianglelefteq"%string, 0x22EC); ("ntrianglerighteq"%string, 0x22ED);
   ("leftarrow"%string, 0x2190); ("gets"%string, 0x2190); ("uparrow"%string, 0x2191); ("rightarrow"%string, 0x2192); ("to"%string, 0x2192); ("downarrow"%string, 0x2193);
   ("leftrightarrow"%string, 0x2194); ("updownarrow"%string, 0x2195); ("nwarrow"%string, 0x2196); ("nearrow"%string, 0x2197); ("searrow"%string, 0x2198); ("swarrow"%string, 0x2199);
   ("nleftarrow"%string, 0x219A); ("nrightarrow"%string, 0x219B); ("twoheadleftarrow"%string, 0x219E); ("twoheadrightarrow"%string, 0x21A0); ("leftarrowtail"%string, 0x21A2); ("rightarrowtail"%string, 0x21A3);
   ("mapsfrom"%string, 0x21A4); ("mapsto"%string, 0x21A6); ("hookleftarrow"%string, 0x21A9); ("hookrightarrow"%string, 0x21AA); ("looparrowleft"%string, 0x21AB); ("looparrowright"%string, 0x21AC);
   ("leftrightsquigarrow"%string, 0x21AD); ("nleftrightarrow"%string, 0x21AE); ("Lsh"%string, 0x21B0); ("Rsh"%string, 0x21B1); ("curvearrowleft"%string, 0x21B6); ("curvearrowright"%string, 0x21B7);
   ("circlearrowleft"%string, 0x21BA); ("circlearrowright"%string, 0x21BB); ("leftharpoonup"%string, 0x21BC); ("leftharpoondown"%string, 0x21BD); ("upharpoonright"%string, 0x21BE); ("restriction"%string, 0x21BE);
   ("upharpoonleft"%string, 0x21BF); ("rightharpoonup"%string, 0x21C0); ("rightharpoondown"%string, 0x21C1); ("downharpoonright"%string, 0x21C2); ("downharpoonleft"%string, 0x21C3); ("rightleftarrows"%string, 0x21C4);
   ("leftrightarrows"%string, 0x21C6); ("leftleftarrows"%string, 0x21C7); ("upuparrows"%string, 0x21C8); ("rightrightarrows"%string, 0x21C9); ("downdownarrows"%string, 0x21CA); ("leftrightharpoons"%string, 0x21CB);
   ("rightleftharpoons"%string, 0x21CC); ("nLeftarrow"%string, 0x21CD); ("nLeftrightarrow"%string, 0x21CE); ("nRightarrow"%string, 0x21CF); ("Leftarrow"%string, 0x21D0); ("Uparrow"%string, 0x21D1);
   ("Rightarrow"%string, 0x21D2); ("Downarrow"%string, 0x21D3); ("Leftrightarrow"%string, 0x21D4); ("Updownarrow"%string, 0x21D5); ("Lleftarrow"%string, 0x21DA); ("Rrightarrow"%string, 0x21DB);
   ("rightsquigarrow"%string, 0x21DD); ("leadsto"%string, 0x21DD); ("dashleftarrow"%string, 0x21E0); ("dashrightarrow"%string, 0x21E2);
   ("longleftarrow"%string, 0x27F5); ("longrightarrow"%string, 0x27F6); ("longleftrightarrow"%string, 0x27F7); ("Longleftarrow"%string, 0x27F8); ("impliedby"%string, 0x27F8); ("Longrightarrow"%string, 0x27F9);
   ("implies"%string, 0x27F9); ("Longleftrightarrow"%string, 0x27FA); ("iff"%string, 0x27FA); ("longmapsto"%string, 0x27FC); ("strictif"%string, 0x297D); ("strictfi"%string, 0x297C);
   ("thickapprox"%string, 0x2248); ("thicksim"%string, 0x223C); ("colonequals"%string, 0x2254); ("coloncolonequals"%string, 0x2A74); ("coloncolon"%string, 0x2237); ("minuscolon"%string, 0x2239); ("vcentcolon"%string, 0x3A); ("ncong"%string, 0x2247)].

Definition punct_symbols : list (string * N) := [
  ("colon"%string, 0x3A); ("ldotp"%string, 0x2E); ("cdotp"%string, 0xB7)].

Definition open_symbols : list (string * N) := [
  ("lparen"%string, 0x28); ("llparenthesis"%string, 0x2987); ("lgroup"%string, 0x27EE); ("lbrack"%string, 0x5B); ("lBrack"%string, 0x27E6); ("{"%string, 0x7B);
   ("lbrace"%string, 0x7B); ("lBrace"%string, 0x2983); ("langle"%string, 0x27E8); ("lAngle"%string, 0x27EA); ("llangle"%string, 0x2989); ("lfloor"%string, 0x230A);
   ("lceil"%string, 0x2308); ("lmoustache"%string, 0x23B0); ("lvert"%string, 0x7C); ("lVert"%string, 0x2016)].

Definition close_symbols : list (string * N) := [
  ("rparen"%string, 0x29); ("rrparenthesis"%string, 0x2988); ("rgroup"%string, 0x27EF); ("rbrack"%string, 0x5D); ("rBrack"%string, 0x27E7); ("}"%string, 0x7D);
   ("rbrace"%string, 0x7D); ("rBrace"%string, 0x2984); ("rangle"%string, 0x27E9); ("rAngle"%string, 0x27EB); ("rrangle"%string, 0x298A); ("rfloor"%string, 0x230B);
   ("rceil"%string, 0x2309); ("rmoustache"%string, 0x23B1); ("rvert"%string, 0x7C); ("rVert"%string, 0x2016)].

Definition fence_symbols : list (string * N) := [
  ("vert"%string, 0x7C); ("Vert"%string, 0x2016); ("|"%string, 0x2016)].

Definition smallrel_symbols : list (string * N) := [
  ("shortmid"%string, 0x2223); ("nshortmid"%string, 0x2224); ("shortparallel"%string, 0x2225); ("nshortparallel"%string, 0x2226); ("smallsmile"%string, 0x2323); ("smallfrown"%string, 0x2322)].

Definition smallbin_symbols : list (string * N) := [
  ("smallsetminus"%string, 0x2216)].

Definition standard_symbols : list (str * event) :=
  (of_class Ord ord_symbols ++
   of_class Bin bin_symbols ++
   of_class Rel rel_symbols ++
   of_class Punct punct_symbols ++
   of_class Opening open_symbols ++
   of_class Closing close_symbols ++
   of_class Fence fence_symbols ++
   of_class SmallRel smallrel_symbols ++
   of_class SmallBin smallbin_symbols)%list.

(** Relations of two characters; U+FE00 chooses a variant of the one before it. *)
Definition two_symbols : list (string * (N * N)) := [
  ("varsubsetneq"%string, (0x228A, 0xFE00)); ("varsupsetneq"%string, (0x228B, 0xFE00)); ("varsubsetneqq"%string, (0x2ACB, 0xFE00));
  ("varsupsetneqq"%string, (0x2ACC, 0xFE00)); ("lvertneqq"%string, (0x2268, 0xFE00)); ("gvertneqq"%string, (0x2269, 0xFE00));
  ("approxcolon"%string, (0x2248, 0x3A)); ("colonapprox"%string, (0x3A, 0x2248)); ("approxcoloncolon"%string, (0x2248, 0x2237));
  ("Colonapprox"%string, (0x2237, 0x2248)); ("coloncolonapprox"%string, (0x2237, 0x2248)); ("colonminus"%string, (0x3A, 0x2212));
  ("coloncolonminus"%string, (0x2237, 0x2212)); ("minuscoloncolon"%string, (0x2212, 0x2237)); ("colonsim"%string, (0x3A, 0x223C));
  ("Colonsim"%string, (0x2237, 0x223C)); ("coloncolonsim"%string, (0x2237, 0x223C));
  ("Eqcolon"%string, (0x2212, 0x2237)); ("Eqqcolon"%string, (0x3D, 0x2237))].
Definition two_symbol_events : list (str * event) :=
  map (fun p => (lit (fst p), EvContent (CRelation (fst (snd p)) (Some (snd (snd p))) false))) two_symbols.

(** Spaces, in eighteenths of an em. *)
Definition fixed_spaces : list (string * Z) := [
  (","%string, 3%Z); ("thinspace"%string, 3%Z); (">"%string, 4%Z); (":"%string, 4%Z); ("medspace"%string, 4%Z); (";"%string, 5%Z);
  ("thickspace"%string, 5%Z); ("!"%string, (-3)%Z); ("negthinspace"%string, (-3)%Z); ("negmedspace"%string, (-4)%Z);
  ("negthickspace"%string, (-5)%Z); ("enspace"%string, 9%Z); ("quad"%string, 18%Z); ("qquad"%string, 36%Z)].
Definition space_events : list (str * event) :=
  map (fun p => (lit (fst p), EvSpace (Some (mkDim (f32_div (f32_of_Z (snd p)) (f32_of_Z 18)) UEm)) None None)) fixed_spaces.

(** Commands that the code gives another character, class or size. *)
Definition deviating : list string :=
  ["mu"; "Game"; "colon"; "ldotp"; "cdotp"; "asymp"; "smallsetminus"; "smallfrown";
   "Diamond"; "varnothing"; "dagger"; "ddagger"; "bigtriangleup"; "bigtriangledown"; "barwedge"; "ast"; "vcentcolon"; "ncong"; "|"]%string.

(** ** Characters of the mathematical blocks of Unicode *)

(** Each with the character it is the negation of: the canonical decompositions
    with U+0338. *)
Definition negations : list (N * N) := [
   (0x219A, 0x2190); (0x219B, 0x2192); (0x21AE, 0x2194); (0x21CD, 0x21D0); (0x21CE, 0x21D4); (0x21CF, 0x21D2);
   (0x2204, 0x2203); (0x2209, 0x2208); (0x220C, 0x220B); (0x2224, 0x2223); (0x2226, 0x2225); (0x2241, 0x223C);
   (0x2244, 0x2243); (0x2247, 0x2245); (0x2249, 0x2248); (0x2260, 0x3D); (0x2262, 0x2261); (0x226D, 0x224D);
   (0x226E, 0x3C); (0x226F, 0x3E); (0x2270, 0x2264); (0x2271, 0x2265); (0x2274, 0x2272); (0x2275, 0x2273);
   (0x2278, 0x2276); (0x2279, 0x2277); (0x2280, 0x227A); (0x2281, 0x227B); (0x2284, 0x2282); (0x2285, 0x2283);
   (0x2288, 0x2286); (0x2289, 0x2287); (0x22AC, 0x22A2); (0x22AD, 0x22A8); (0x22AE, 0x22A9); (0x22AF, 0x22AB);
   (0x22E0, 0x227C); (0x22E1, 0x227D); (0x22E2, 0x2291); (0x22E3, 0x2292); (0x22EA, 0x22B2); (0x22EB, 0x22B3);
   (0x22EC, 0x22B4); (0x22ED, 0x22B5); (0x2ADC, 0x2ADD)].

(** Runs of characters of one class, block by block. *)
Definition blocks : list (N * N * class) := [
  (* arrows *)
  (0x2190, 0x21B3, Rel); (0x21B6, 0x21B7, Rel); (0x21BA, 0x21FF, Rel); (0x27F0, 0x27FF, Rel); (0x2900, 0x297F, Rel); (0x2B00, 0x2B11, Rel); (0x2B30, 0x2B4C, Rel);
  (* mathematical operators *)
  (0x2200, 0x2207, Ord); (0x2208, 0x220D, Rel); (0x2213, 0x2219, Bin); (0x221A, 0x221C, Ord); (0x221E, 0x2222, Ord); (0x2223, 0x2226, Rel); (0x2227, 0x222A, Bin);
  (0x2234, 0x2237, Rel); (0x2239, 0x223D, Rel); (0x2241, 0x228B, Rel); (0x228C, 0x228E, Bin); (0x228F, 0x2292, Rel); (0x2293, 0x22A1, Bin); (0x22A2, 0x22A3, Rel);
  (0x22A6, 0x22B8, Rel); (0x22B9, 0x22BD, Bin); (0x22C4, 0x22C7, Bin); (0x22C9, 0x22CC, Bin); (0x22CE, 0x22CF, Bin); (0x22D0, 0x22D1, Rel); (0x22D2, 0x22D3, Bin);
  (0x22D4, 0x22ED, Rel); (0x22F2, 0x22FF, Rel);
  (* miscellaneous mathematical symbols *)
  (0x27C3, 0x27CB, Rel); (0x27CE, 0x27CF, Bin); (0x27D2, 0x27D4, Rel); (0x27DA, 0x27DF, Rel); (0x27E0, 0x27E5, Bin); (0x29B6, 0x29B9, Bin); (0x29C0, 0x29C1, Bin);
  (0x29C4, 0x29C8, Bin); (0x29CE, 0x29D5, Rel); (0x29D6, 0x29D7, Bin); (0x29E3, 0x29E6, Rel); (0x29F5, 0x29F7, Bin); (0x29FA, 0x29FB, Bin); (0x29FE, 0x29FF, Bin);
  (* supplemental mathematical operators *)
  (0x2A22, 0x2A58, Bin); (0x2A66, 0x2A70, Rel); (0x2A71, 0x2A72, Bin); (0x2A73, 0x2AE0, Rel); (0x2AE2, 0x2AF0, Rel); (0x2AF2, 0x2AF3, Rel); (0x2AF4, 0x2AF6, Bin);
  (0x2AF7, 0x2AFA, Rel); (0x2AFD, 0x2AFE, Bin);
  (* letters *)
  (0xC0, 0xD6, Ord); (0xD8, 0xF6, Ord); (0xF8, 0x2AF, Ord); (0x370, 0x373, Ord); (0x391, 0x3A1, Ord); (0x3A3, 0x3FF, Ord); (0x400, 0x52F, Ord); (0x2100, 0x214F, Ord);
  (0x1D400, 0x1D7FF, Ord)].
