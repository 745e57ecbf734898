(** * PrimTable: which primitive a control sequence names.

    The arms of the [match] of [handle_primitive] (src/parser/primitives.rs:136-1961),
    in order; generated by tools/gen_tables.py from the text of /repo. The number
    in the comment is the line of the arm. *)

From Coq Require Import List NArith ZArith Bool.
From Verif Require Import Base Float32 Event Tables Prim.
Import ListNotations.
Open Scope N_scope.

Definition prim_table : list (str * prim) := [
  (lit "arccos", PFunction) (* 137 *);
  (lit "cos", PFunction) (* 137 *);
  (lit "csc", PFunction) (* 137 *);
  (lit "exp", PFunction) (* 137 *);
  (lit "ker", PFunction) (* 137 *);
  (lit "sinh", PFunction) (* 137 *);
  (lit "arcsin", PFunction) (* 137 *);
  (lit "cosh", PFunction) (* 137 *);
  (lit "deg", PFunction) (* 137 *);
  (lit "lg", PFunction) (* 137 *);
  (lit "ln", PFunction) (* 137 *);
  (lit "arctan", PFunction) (* 137 *);
  (lit "cot", PFunction) (* 137 *);
  (lit "det", PFunction) (* 137 *);
  (lit "hom", PFunction) (* 137 *);
  (lit "log", PFunction) (* 137 *);
  (lit "sec", PFunction) (* 137 *);
  (lit "tan", PFunction) (* 137 *);
  (lit "arg", PFunction) (* 137 *);
  (lit "coth", PFunction) (* 137 *);
  (lit "dim", PFunction) (* 137 *);
  (lit "sin", PFunction) (* 137 *);
  (lit "tanh", PFunction) (* 137 *);
  (lit "sgn", PFunction) (* 137 *);
  (lit "lim", PFunctionLim) (* 140 *);
  (lit "Pr", PFunctionLim) (* 140 *);
  (lit "sup", PFunctionLim) (* 140 *);
  (lit "max", PFunctionLim) (* 140 *);
  (lit "inf", PFunctionLim) (* 140 *);
  (lit "gcd", PFunctionLim) (* 140 *);
  (lit "min", PFunctionLim) (* 140 *);
  (lit "liminf", PFunNameLim (lit "lim inf")) (* 145 *);
  (lit "limsup", PFunNameLim (lit "lim sup")) (* 150 *);
  (lit "operatorname", POperatorname) (* 156 *);
  (lit "bmod", PSimple (EvContent (CFunction (lit "mod")))) (* 169 *);
  (lit "pmod", PPmod) (* 170 *);
  (lit "mathord", PAtom AtOrd) (* 205 *);
  (lit "mathop", PMathop) (* 206 *);
  (lit "mathbin", PAtom AtBin) (* 211 *);
  (lit "mathrel", PAtom AtRel) (* 212 *);
  (lit "mathopen", PAtom AtOpen) (* 213 *);
  (lit "mathclose", PAtom AtClose) (* 214 *);
  (lit "mathpunct", PAtom AtPunct) (* 215 *);
  (lit "mathinner", PAtom AtInner) (* 216 *);
  (lit "alpha", PSimple (ordinary 945)) (* 222 *);
  (lit "beta", PSimple (ordinary 946)) (* 223 *);
  (lit "gamma", PSimple (ordinary 947)) (* 224 *);
  (lit "delta", PSimple (ordinary 948)) (* 225 *);
  (lit "epsilon", PSimple (ordinary 1013)) (* 226 *);
  (lit "zeta", PSimple (ordinary 950)) (* 227 *);
  (lit "eta", PSimple (ordinary 951)) (* 228 *);
  (lit "theta", PSimple (ordinary 952)) (* 229 *);
  (lit "iota", PSimple (ordinary 953)) (* 230 *);
  (lit "kappa", PSimple (ordinary 954)) (* 231 *);
  (lit "lambda", PSimple (ordinary 955)) (* 232 *);
  (lit "mu", PSimple (ordinary 181)) (* 233 *);
  (lit "nu", PSimple (ordinary 957)) (* 234 *);
  (lit "xi", PSimple (ordinary 958)) (* 235 *);
  (lit "pi", PSimple (ordinary 960)) (* 236 *);
  (lit "rho", PSimple (ordinary 961)) (* 237 *);
  (lit "sigma", PSimple (ordinary 963)) (* 238 *);
  (lit "tau", PSimple (ordinary 964)) (* 239 *);
  (lit "upsilon", PSimple (ordinary 965)) (* 240 *);
  (lit "phi", PSimple (ordinary 981)) (* 241 *);
  (lit "chi", PSimple (ordinary 967)) (* 242 *);
  (lit "psi", PSimple (ordinary 968)) (* 243 *);
  (lit "omega", PSimple (ordinary 969)) (* 244 *);
  (lit "omicron", PSimple (ordinary 959)) (* 245 *);
  (lit "Alpha", PSimple (ordinary 913)) (* 247 *);
  (lit "Beta", PSimple (ordinary 914)) (* 248 *);
  (lit "Gamma", PSimple (ordinary 915)) (* 249 *);
  (lit "Delta", PSimple (ordinary 916)) (* 250 *);
  (lit "Epsilon", PSimple (ordinary 917)) (* 251 *);
  (lit "Zeta", PSimple (ordinary 918)) (* 252 *);
  (lit "Eta", PSimple (ordinary 919)) (* 253 *);
  (lit "Theta", PSimple (ordinary 920)) (* 254 *);
  (lit "Iota", PSimple (ordinary 921)) (* 255 *);
  (lit "Kappa", PSimple (ordinary 922)) (* 256 *);
  (lit "Lambda", PSimple (ordinary 923)) (* 257 *);
  (lit "Mu", PSimple (ordinary 924)) (* 258 *);
  (lit "Nu", PSimple (ordinary 925)) (* 259 *);
  (lit "Xi", PSimple (ordinary 926)) (* 260 *);
  (lit "Pi", PSimple (ordinary 928)) (* 261 *);
  (lit "Rho", PSimple (ordinary 929)) (* 262 *);
  (lit "Sigma", PSimple (ordinary 931)) (* 263 *);
  (lit "Tau", PSimple (ordinary 932)) (* 264 *);
  (lit "Upsilon", PSimple (ordinary 933)) (* 265 *);
  (lit "Phi", PSimple (ordinary 934)) (* 266 *);
  (lit "Chi", PSimple (ordinary 935)) (* 267 *);
  (lit "Psi", PSimple (ordinary 936)) (* 268 *);
  (lit "Omega", PSimple (ordinary 937)) (* 269 *);
  (lit "Omicron", PSimple (ordinary 927)) (* 270 *);
  (lit "varepsilon", PSimple (ordinary 949)) (* 272 *);
  (lit "vartheta", PSimple (ordinary 977)) (* 273 *);
  (lit "varkappa", PSimple (ordinary 1008)) (* 274 *);
  (lit "varrho", PSimple (ordinary 1009)) (* 275 *);
  (lit "varsigma", PSimple (ordinary 962)) (* 276 *);
  (lit "varpi", PSimple (ordinary 982)) (* 277 *);
  (lit "varphi", PSimple (ordinary 966)) (* 278 *);
  (lit "varGamma", PSimple (ordinary 120548)) (* 280 *);
  (lit "varDelta", PSimple (ordinary 120549)) (* 281 *);
  (lit "varTheta", PSimple (ordinary 120553)) (* 282 *);
  (lit "varLambda", PSimple (ordinary 120556)) (* 283 *);
  (lit "varXi", PSimple (ordinary 120559)) (* 284 *);
  (lit "varPi", PSimple (ordinary 120561)) (* 285 *);
  (lit "varSigma", PSimple (ordinary 120564)) (* 286 *);
  (lit "varUpsilon", PSimple (ordinary 120566)) (* 287 *);
  (lit "varPhi", PSimple (ordinary 120567)) (* 288 *);
  (lit "varPsi", PSimple (ordinary 120569)) (* 289 *);
  (lit "varOmega", PSimple (ordinary 120570)) (* 290 *);
  (lit "aleph", PSimple (ordinary 8501)) (* 293 *);
  (lit "beth", PSimple (ordinary 8502)) (* 294 *);
  (lit "gimel", PSimple (ordinary 8503)) (* 295 *);
  (lit "daleth", PSimple (ordinary 8504)) (* 296 *);
  (lit "digamma", PSimple (ordinary 989)) (* 298 *);
  (lit "eth", PSimple (ordinary 240)) (* 299 *);
  (lit "ell", PSimple (ordinary 8467)) (* 300 *);
  (lit "nabla", PSimple (ordinary 8711)) (* 301 *);
  (lit "partial", PSimple (ordinary 8706)) (* 302 *);
  (lit "Finv", PSimple (ordinary 8498)) (* 303 *);
  (lit "Game", PSimple (ordinary 8503)) (* 304 *);
  (lit "hbar", PSimple (ordinary 8463)) (* 305 *);
  (lit "hslash", PSimple (ordinary 8463)) (* 305 *);
  (lit "imath", PSimple (ordinary 305)) (* 306 *);
  (lit "jmath", PSimple (ordinary 567)) (* 307 *);
  (lit "Im", PSimple (ordinary 8465)) (* 308 *);
  (lit "Re", PSimple (ordinary 8476)) (* 309 *);
  (lit "wp", PSimple (ordinary 8472)) (* 310 *);
  (lit "Bbbk", PSimple (ordinary 120156)) (* 311 *);
  (lit "Angstrom", PSimple (ordinary 8491)) (* 312 *);
  (lit "backepsilon", PSimple (ordinary 1014)) (* 313 *);
  (lit "dots", PDots) (* 318 *);
  (lit "ldots", PSimple (ordinary 8230)) (* 325 *);
  (lit "dotso", PSimple (ordinary 8230)) (* 325 *);
  (lit "dotsc", PSimple (ordinary 8230)) (* 325 *);
  (lit "cdots", PSimple (ordinary 8943)) (* 326 *);
  (lit "dotsi", PSimple (ordinary 8943)) (* 326 *);
  (lit "dotsm", PSimple (ordinary 8943)) (* 326 *);
  (lit "dotsb", PSimple (ordinary 8943)) (* 326 *);
  (lit "idotsin", PSimple (ordinary 8943)) (* 326 *);
  (lit "ddots", PSimple (ordinary 8945)) (* 327 *);
  (lit "iddots", PSimple (ordinary 8944)) (* 328 *);
  (lit "vdots", PSimple (ordinary 8942)) (* 329 *);
  (lit "mathellipsis", PSimple (ordinary 8230)) (* 330 *);
  (lit "infty", PSimple (ordinary 8734)) (* 331 *);
  (lit "checkmark", PSimple (ordinary 10003)) (* 332 *);
  (lit "ballotx", PSimple (ordinary 10007)) (* 333 *);
  (lit "dagger", PSimple (ordinary 8224)) (* 334 *);
  (lit "dag", PSimple (ordinary 8224)) (* 334 *);
  (lit "ddagger", PSimple (ordinary 8225)) (* 335 *);
  (lit "ddag", PSimple (ordinary 8225)) (* 335 *);
  (lit "angle", PSimple (ordinary 8736)) (* 336 *);
  (lit "measuredangle", PSimple (ordinary 8737)) (* 337 *);
  (lit "lq", PSimple (ordinary 8216)) (* 338 *);
  (lit "Box", PSimple (ordinary 9633)) (* 339 *);
  (lit "sphericalangle", PSimple (ordinary 8738)) (* 340 *);
  (lit "square", PSimple (ordinary 9633)) (* 341 *);
  (lit "top", PSimple (ordinary 8868)) (* 342 *);
  (lit "rq", PSimple (ordinary 8242)) (* 343 *);
  (lit "blacksquare", PSimple (ordinary 9632)) (* 344 *);
  (lit "bot", PSimple (ordinary 8869)) (* 345 *);
  (lit "triangledown", PSimple (ordinary 9661)) (* 346 *);
  (lit "Bot", PSimple (ordinary 10987)) (* 347 *);
  (lit "triangleleft", PSimple (ordinary 9667)) (* 348 *);
  (lit "triangleright", PSimple (ordinary 9657)) (* 349 *);
  (lit "cent", PSimple (ordinary 162)) (* 350 *);
  (lit "colon", PSimple (ordinary 58)) (* 351 *);
  (lit "ratio", PSimple (ordinary 58)) (* 351 *);
  (lit "vcentcolon", PSimple (ordinary 58)) (* 351 *);
  (lit "bigtriangledown", PSimple (ordinary 9661)) (* 352 *);
  (lit "pounds", PSimple (ordinary 163)) (* 353 *);
  (lit "mathsterling", PSimple (ordinary 163)) (* 353 *);
  (lit "bigtriangleup", PSimple (ordinary 9651)) (* 354 *);
  (lit "blacktriangle", PSimple (ordinary 9650)) (* 355 *);
  (lit "blacktriangledown", PSimple (ordinary 9660)) (* 356 *);
  (lit "yen", PSimple (ordinary 165)) (* 357 *);
  (lit "blacktriangleleft", PSimple (ordinary 9664)) (* 358 *);
  (lit "euro", PSimple (ordinary 8364)) (* 359 *);
  (lit "blacktriangleright", PSimple (ordinary 9654)) (* 360 *);
  (lit "Diamond", PSimple (ordinary 9674)) (* 361 *);
  (lit "degree", PSimple (ordinary 176)) (* 362 *);
  (lit "lozenge", PSimple (ordinary 9674)) (* 363 *);
  (lit "blacklozenge", PSimple (ordinary 10731)) (* 364 *);
  (lit "mho", PSimple (ordinary 8487)) (* 365 *);
  (lit "bigstar", PSimple (ordinary 9733)) (* 366 *);
  (lit "diagdown", PSimple (ordinary 9586)) (* 367 *);
  (lit "maltese", PSimple (ordinary 10016)) (* 368 *);
  (lit "diagup", PSimple (ordinary 9585)) (* 369 *);
  (lit "P", PSimple (ordinary 182)) (* 370 *);
  (lit "clubsuit", PSimple (ordinary 9827)) (* 371 *);
  (lit "varclubsuit", PSimple (ordinary 9831)) (* 372 *);
  (lit "S", PSimple (ordinary 167)) (* 373 *);
  (lit "diamondsuit", PSimple (ordinary 9826)) (* 374 *);
  (lit "vardiamondsuit", PSimple (ordinary 9830)) (* 375 *);
  (lit "copyright", PSimple (ordinary 169)) (* 376 *);
  (lit "heartsuit", PSimple (ordinary 9825)) (* 377 *);
  (lit "varheartsuit", PSimple (ordinary 9829)) (* 378 *);
  (lit "circledR", PSimple (ordinary 174)) (* 379 *);
  (lit "spadesuit", PSimple (ordinary 9824)) (* 380 *);
  (lit "varspadesuit", PSimple (ordinary 9828)) (* 381 *);
  (lit "circledS", PSimple (ordinary 9416)) (* 382 *);
  (lit "female", PSimple (ordinary 9792)) (* 383 *);
  (lit "male", PSimple (ordinary 9794)) (* 384 *);
  (lit "astrosun", PSimple (ordinary 9737)) (* 385 *);
  (lit "sun", PSimple (ordinary 9788)) (* 386 *);
  (lit "leftmoon", PSimple (ordinary 9790)) (* 387 *);
  (lit "rightmoon", PSimple (ordinary 9789)) (* 388 *);
  (lit "smiley", PSimple (ordinary 9786)) (* 389 *);
  (lit "Earth", PSimple (ordinary 8853)) (* 390 *);
  (lit "flat", PSimple (ordinary 9837)) (* 391 *);
  (lit "standardstate", PSimple (ordinary 10677)) (* 392 *);
  (lit "natural", PSimple (ordinary 9838)) (* 393 *);
  (lit "sharp", PSimple (ordinary 9839)) (* 394 *);
  (lit "permil", PSimple (ordinary 8240)) (* 395 *);
  (lit "QED", PSimple (ordinary 8718)) (* 396 *);
  (lit "lightning", PSimple (ordinary 8623)) (* 397 *);
  (lit "diameter", PSimple (ordinary 8960)) (* 398 *);
  (lit "leftouterjoin", PSimple (ordinary 10197)) (* 399 *);
  (lit "rightouterjoin", PSimple (ordinary 10198)) (* 400 *);
  (lit "concavediamond", PSimple (ordinary 10209)) (* 401 *);
  (lit "concavediamondtickleft", PSimple (ordinary 10210)) (* 402 *);
  (lit "concavediamondtickright", PSimple (ordinary 10211)) (* 403 *);
  (lit "fullouterjoin", PSimple (ordinary 10199)) (* 404 *);
  (lit "triangle", PSimple (ordinary 9651)) (* 405 *);
  (lit "vartriangle", PSimple (ordinary 9651)) (* 405 *);
  (lit "whitesquaretickleft", PSimple (ordinary 10212)) (* 406 *);
  (lit "whitesquaretickright", PSimple (ordinary 10213)) (* 407 *);
  (lit "bf", PFontChange FBold) (* 413 *);
  (lit "cal", PFontChange FScript) (* 414 *);
  (lit "it", PFontChange FItalic) (* 415 *);
  (lit "rm", PFontChange FUpRight) (* 416 *);
  (lit "sf", PFontChange FSansSerif) (* 417 *);
  (lit "tt", PFontChange FMonospace) (* 418 *);
  (lit "mathbf", PFontGroup (Some FBold)) (* 423 *);
  (lit "symbf", PFontGroup (Some FBold)) (* 423 *);
  (lit "mathbfup", PFontGroup (Some FBold)) (* 423 *);
  (lit "symbfup", PFontGroup (Some FBold)) (* 423 *);
  (lit "boldsymbol", PFontGroup (Some FBoldSymbol)) (* 426 *);
  (lit "mathcal", PFontGroup (Some FScript)) (* 427 *);
  (lit "symcal", PFontGroup (Some FScript)) (* 427 *);
  (lit "mathit", PFontGroup (Some FItalic)) (* 428 *);
  (lit "symit", PFontGroup (Some FItalic)) (* 428 *);
  (lit "mathrm", PFontGroup (Some FUpRight)) (* 429 *);
  (lit "symrm", PFontGroup (Some FUpRight)) (* 429 *);
  (lit "mathup", PFontGroup (Some FUpRight)) (* 429 *);
  (lit "symup", PFontGroup (Some FUpRight)) (* 429 *);
  (lit "mathsf", PFontGroup (Some FSansSerif)) (* 430 *);
  (lit "symsf", PFontGroup (Some FSansSerif)) (* 430 *);
  (lit "mathsfup", PFontGroup (Some FSansSerif)) (* 430 *);
  (lit "symsfup", PFontGroup (Some FSansSerif)) (* 430 *);
  (lit "mathtt", PFontGroup (Some FMonospace)) (* 433 *);
  (lit "symtt", PFontGroup (Some FMonospace)) (* 433 *);
  (lit "mathbb", PFontGroup (Some FDoubleStruck)) (* 434 *);
  (lit "symbb", PFontGroup (Some FDoubleStruck)) (* 434 *);
  (lit "mathbbit", PFontGroup (Some FDoubleStruckItalic)) (* 435 *);
  (lit "symbbit", PFontGroup (Some FDoubleStruckItalic)) (* 435 *);
  (lit "mathfrak", PFontGroup (Some FFraktur)) (* 436 *);
  (lit "symfrak", PFontGroup (Some FFraktur)) (* 436 *);
  (lit "mathbfcal", PFontGroup (Some FBoldScript)) (* 437 *);
  (lit "symbfcal", PFontGroup (Some FBoldScript)) (* 437 *);
  (lit "mathsfit", PFontGroup (Some FSansSerifItalic)) (* 438 *);
  (lit "symsfit", PFontGroup (Some FSansSerifItalic)) (* 438 *);
  (lit "mathbfit", PFontGroup (Some FBoldItalic)) (* 439 *);
  (lit "symbfit", PFontGroup (Some FBoldItalic)) (* 439 *);
  (lit "mathbffrak", PFontGroup (Some FBoldFraktur)) (* 440 *);
  (lit "symbffrak", PFontGroup (Some FBoldFraktur)) (* 440 *);
  (lit "mathbfsfup", PFontGroup (Some FBoldSansSerif)) (* 441 *);
  (lit "symbfsfup", PFontGroup (Some FBoldSansSerif)) (* 441 *);
  (lit "mathbfsfit", PFontGroup (Some FSansSerifBoldItalic)) (* 442 *);
  (lit "symbfsfit", PFontGroup (Some FSansSerifBoldItalic)) (* 442 *);
  (lit "mathnormal", PFontGroup None) (* 443 *);
  (lit "symnormal", PFontGroup None) (* 443 *);
  (lit "displaystyle", PStyleChange SDisplay) (* 448 *);
  (lit "textstyle", PStyleChange SText) (* 449 *);
  (lit "scriptstyle", PStyleChange SScript) (* 450 *);
  (lit "scriptscriptstyle", PStyleChange SScriptScript) (* 451 *);
  (lit "color", PColor) (* 456 *);
  (lit "textcolor", PTextcolor) (* 468 *);
  (lit "colorbox", PColorbox) (* 487 *);
  (lit "fcolorbox", PFcolorbox) (* 503 *);
  (lit "big", PSized DBig) (* 535 *);
  (lit "bigl", PSized DBig) (* 535 *);
  (lit "bigr", PSized DBig) (* 535 *);
  (lit "bigm", PSized DBig) (* 535 *);
  (lit "Big", PSized DBIG) (* 536 *);
  (lit "Bigl", PSized DBIG) (* 536 *);
  (lit "Bigr", PSized DBIG) (* 536 *);
  (lit "Bigm", PSized DBIG) (* 536 *);
  (lit "bigg", PSized DBigg) (* 537 *);
  (lit "biggl", PSized DBigg) (* 537 *);
  (lit "biggr", PSized DBigg) (* 537 *);
  (lit "biggm", PSized DBigg) (* 537 *);
  (lit "Bigg", PSized DBIGG) (* 538 *);
  (lit "Biggl", PSized DBIGG) (* 538 *);
  (lit "Biggr", PSized DBIGG) (* 538 *);
  (lit "Biggm", PSized DBIGG) (* 538 *);
  (lit "left", PLeft) (* 540 *);
  (lit "middle", PMiddle) (* 571 *);
  (lit "right", PUnbalanced) (* 579 *);
  (lit "sum", PLargeOp 8721 true) (* 588 *);
  (lit "prod", PLargeOp 8719 true) (* 589 *);
  (lit "coprod", PLargeOp 8720 true) (* 590 *);
  (lit "bigvee", PLargeOp 8897 true) (* 591 *);
  (lit "bigwedge", PLargeOp 8896 true) (* 592 *);
  (lit "bigcup", PLargeOp 8899 true) (* 593 *);
  (lit "bigcap", PLargeOp 8898 true) (* 594 *);
  (lit "biguplus", PLargeOp 10756 true) (* 595 *);
  (lit "bigoplus", PLargeOp 10753 true) (* 596 *);
  (lit "bigotimes", PLargeOp 10754 true) (* 597 *);
  (lit "bigodot", PLargeOp 10752 true) (* 598 *);
  (lit "bigsqcup", PLargeOp 10758 true) (* 599 *);
  (lit "bigsqcap", PLargeOp 10757 true) (* 600 *);
  (lit "bigtimes", PLargeOp 10761 true) (* 601 *);
  (lit "intop", PLargeOp 8747 true) (* 602 *);
  (lit "int", PLargeOp 8747 false) (* 604 *);
  (lit "iint", PLargeOp 8748 false) (* 605 *);
  (lit "iiint", PLargeOp 8749 false) (* 606 *);
  (lit "smallint", PSmallint) (* 607 *);
  (lit "iiiint", PLargeOp 10764 false) (* 614 *);
  (lit "intcap", PLargeOp 10777 false) (* 615 *);
  (lit "intcup", PLargeOp 10778 false) (* 616 *);
  (lit "oint", PLargeOp 8750 false) (* 617 *);
  (lit "varointclockwise", PLargeOp 8754 false) (* 618 *);
  (lit "intclockwise", PLargeOp 8753 false) (* 619 *);
  (lit "oiint", PLargeOp 8751 false) (* 620 *);
  (lit "pointint", PLargeOp 10773 false) (* 621 *);
  (lit "rppolint", PLargeOp 10770 false) (* 622 *);
  (lit "scpolint", PLargeOp 10771 false) (* 623 *);
  (lit "oiiint", PLargeOp 8752 false) (* 624 *);
  (lit "intlarhk", PLargeOp 10775 false) (* 625 *);
  (lit "sqint", PLargeOp 10774 false) (* 626 *);
  (lit "intx", PLargeOp 10776 false) (* 627 *);
  (lit "intbar", PLargeOp 10765 false) (* 628 *);
  (lit "intBar", PLargeOp 10766 false) (* 629 *);
  (lit "fint", PLargeOp 10767 false) (* 630 *);
  (lit "acute", PAccent 180 false false) (* 635 *);
  (lit "bar", PAccent 8254 false false) (* 636 *);
  (lit "overline", PAccent 8254 false false) (* 636 *);
  (lit "underbar", PUnder 95 false) (* 637 *);
  (lit "underline", PUnder 95 false) (* 637 *);
  (lit "breve", PAccent 728 false false) (* 638 *);
  (lit "check", PAccent 711 false false) (* 639 *);
  (lit "dot", PAccent 729 false false) (* 640 *);
  (lit "ddot", PAccent 168 false false) (* 641 *);
  (lit "grave", PAccent 96 false false) (* 642 *);
  (lit "hat", PAccent 94 false false) (* 643 *);
  (lit "tilde", PAccent 126 false false) (* 644 *);
  (lit "vec", PAccent 8594 false false) (* 645 *);
  (lit "mathring", PAccent 730 false false) (* 646 *);
  (lit "overleftarrow", PAccent 8592 true false) (* 649 *);
  (lit "underleftarrow", PUnder 8592 false) (* 650 *);
  (lit "overrightarrow", PAccent 8594 true false) (* 651 *);
  (lit "Overrightarrow", PAccent 8658 true false) (* 652 *);
  (lit "underrightarrow", PUnder 8594 false) (* 653 *);
  (lit "overleftrightarrow", PAccent 8596 true false) (* 654 *);
  (lit "underleftrightarrow", PUnder 8596 false) (* 655 *);
  (lit "overleftharpoon", PAccent 8636 true false) (* 656 *);
  (lit "overrightharpoon", PAccent 8640 true false) (* 657 *);
  (lit "widecheck", PAccent 711 true false) (* 660 *);
  (lit "widehat", PAccent 94 true false) (* 661 *);
  (lit "widetilde", PAccent 126 true false) (* 662 *);
  (lit "wideparen", PAccent 9180 true false) (* 663 *);
  (lit "overparen", PAccent 9180 true false) (* 663 *);
  (lit "overgroup", PAccent 9184 true true) (* 666 *);
  (lit "undergroup", PUnder 9185 true) (* 670 *);
  (lit "overbrace", PAccent 9182 true true) (* 674 *);
  (lit "underbrace", PUnder 9183 true) (* 678 *);
  (lit "underparen", PUnder 9181 true) (* 682 *);
  (lit "overbracket", PAccent 9140 true true) (* 686 *);
  (lit "underbracket", PUnder 9141 true) (* 690 *);
  (lit "prime", PSimple (ordinary 8242)) (* 696 *);
  (lit "dprime", PSimple (ordinary 8243)) (* 697 *);
  (lit "trprime", PSimple (ordinary 8244)) (* 698 *);
  (lit "qprime", PSimple (ordinary 8279)) (* 699 *);
  (lit "backprime", PSimple (ordinary 8245)) (* 700 *);
  (lit "backdprime", PSimple (ordinary 8246)) (* 701 *);
  (lit "backtrprime", PSimple (ordinary 8247)) (* 702 *);
  (lit ",", PSimple (EvSpace (Some (mkDim (f32_div (f32_lit 3 0) (f32_lit 18 0)) UEm)) None None)) (* 707 *);
  (lit "thinspace", PSimple (EvSpace (Some (mkDim (f32_div (f32_lit 3 0) (f32_lit 18 0)) UEm)) None None)) (* 707 *);
  (lit ">", PSimple (EvSpace (Some (mkDim (f32_div (f32_lit 4 0) (f32_lit 18 0)) UEm)) None None)) (* 712 *);
  (lit ":", PSimple (EvSpace (Some (mkDim (f32_div (f32_lit 4 0) (f32_lit 18 0)) UEm)) None None)) (* 712 *);
  (lit "medspace", PSimple (EvSpace (Some (mkDim (f32_div (f32_lit 4 0) (f32_lit 18 0)) UEm)) None None)) (* 712 *);
  (lit ";", PSimple (EvSpace (Some (mkDim (f32_div (f32_lit 5 0) (f32_lit 18 0)) UEm)) None None)) (* 717 *);
  (lit "thickspace", PSimple (EvSpace (Some (mkDim (f32_div (f32_lit 5 0) (f32_lit 18 0)) UEm)) None None)) (* 717 *);
  (lit "enspace", PSimple (EvSpace (Some (mkDim (f32_lit 5 1) UEm)) None None)) (* 722 *);
  (lit "quad", PSimple (EvSpace (Some (mkDim (f32_lit 1 0) UEm)) None None)) (* 727 *);
  (lit "qquad", PSimple (EvSpace (Some (mkDim (f32_lit 2 0) UEm)) None None)) (* 732 *);
  (lit "mathstrut", PSimple (EvSpace None (Some (mkDim (f32_lit 7 1) UEm)) None)) (* 737 *);
  (lit "strut", PSimple (EvSpace None (Some (mkDim (f32_lit 1 0) UEm)) None)) (* 742 *);
  (lit "~", PSimple (EvContent (CText (lit "&nbsp;")))) (* 746 *);
  (lit "nobreakspace", PSimple (EvContent (CText (lit "&nbsp;")))) (* 746 *);
  (lit "kern", PKern) (* 748 *);
  (lit "hskip", PHskip) (* 756 *);
  (lit "mkern", PMkern) (* 764 *);
  (lit "mskip", PMskip) (* 776 *);
  (lit "hspace", PHspace) (* 795 *);
  (lit "Space", PSpaceCmd) (* 807 *);
  (lit "!", PSimple (EvSpace (Some (mkDim (f32_div (f32_lit (-3) 0) (f32_lit 18 0)) UEm)) None None)) (* 827 *);
  (lit "negthinspace", PSimple (EvSpace (Some (mkDim (f32_div (f32_lit (-3) 0) (f32_lit 18 0)) UEm)) None None)) (* 827 *);
  (lit "negmedspace", PSimple (EvSpace (Some (mkDim (f32_div (f32_lit (-4) 0) (f32_lit 18 0)) UEm)) None None)) (* 832 *);
  (lit "negthickspace", PSimple (EvSpace (Some (mkDim (f32_div (f32_lit (-5) 0) (f32_lit 18 0)) UEm)) None None)) (* 837 *);
  (lit "forall", PSimple (ordinary 8704)) (* 846 *);
  (lit "exists", PSimple (ordinary 8707)) (* 847 *);
  (lit "complement", PSimple (ordinary 8705)) (* 848 *);
  (lit "nexists", PSimple (ordinary 8708)) (* 849 *);
  (lit "neg", PSimple (ordinary 172)) (* 850 *);
  (lit "lnot", PSimple (ordinary 172)) (* 850 *);
  (lit "therefore", PSimple (relation 8756)) (* 852 *);
  (lit "because", PSimple (relation 8757)) (* 853 *);
  (lit "subset", PSimple (relation 8834)) (* 854 *);
  (lit "supset", PSimple (relation 8835)) (* 855 *);
  (lit "strictif", PSimple (relation 10621)) (* 856 *);
  (lit "strictfi", PSimple (relation 10620)) (* 857 *);
  (lit "mapsto", PSimple (relation 8614)) (* 858 *);
  (lit "implies", PSimple (relation 10233)) (* 859 *);
  (lit "mid", PSimple (relation 8739)) (* 860 *);
  (lit "to", PSimple (relation 8594)) (* 861 *);
  (lit "impliedby", PSimple (relation 10232)) (* 862 *);
  (lit "in", PSimple (relation 8712)) (* 863 *);
  (lit "isin", PSimple (relation 8712)) (* 863 *);
  (lit "ni", PSimple (relation 8715)) (* 864 *);
  (lit "gets", PSimple (relation 8592)) (* 865 *);
  (lit "iff", PSimple (relation 10234)) (* 866 *);
  (lit "notni", PSimple (relation 8716)) (* 867 *);
  (lit "land", PSimple (binary 8743)) (* 869 *);
  (lit "emptyset", PSimple (ordinary 8709)) (* 871 *);
  (lit "varnothing", PSimple (ordinary 8960)) (* 872 *);
  (lit "ldotp", PSimple (binary 46)) (* 877 *);
  (lit "cdotp", PSimple (binary 183)) (* 878 *);
  (lit "cdot", PSimple (binary 8901)) (* 879 *);
  (lit "centerdot", PSimple (binary 183)) (* 880 *);
  (lit "circ", PSimple (binary 8728)) (* 881 *);
  (lit "bullet", PSimple (binary 8729)) (* 882 *);
  (lit "circledast", PSimple (binary 8859)) (* 883 *);
  (lit "circledcirc", PSimple (binary 8858)) (* 884 *);
  (lit "circleddash", PSimple (binary 8861)) (* 885 *);
  (lit "bigcirc", PSimple (binary 9711)) (* 886 *);
  (lit "leftthreetimes", PSimple (binary 8907)) (* 887 *);
  (lit "rhd", PSimple (binary 8883)) (* 888 *);
  (lit "lhd", PSimple (binary 8882)) (* 889 *);
  (lit "rightthreetimes", PSimple (binary 8908)) (* 890 *);
  (lit "rtimes", PSimple (binary 8906)) (* 891 *);
  (lit "ltimes", PSimple (binary 8905)) (* 892 *);
  (lit "leftmodels", PSimple (binary 8872)) (* 893 *);
  (lit "amalg", PSimple (binary 10815)) (* 894 *);
  (lit "ast", PSimple (binary 42)) (* 895 *);
  (lit "asymp", PSimple (binary 8781)) (* 896 *);
  (lit "And", PSimple (binary 38)) (* 897 *);
  (lit "with", PSimple (binary 38)) (* 897 *);
  (lit "lor", PSimple (binary 8744)) (* 898 *);
  (lit "setminus", PSimple (binary 8726)) (* 899 *);
  (lit "Cup", PSimple (binary 8915)) (* 900 *);
  (lit "cup", PSimple (binary 8746)) (* 901 *);
  (lit "sqcup", PSimple (binary 8852)) (* 902 *);
  (lit "sqcap", PSimple (binary 8851)) (* 903 *);
  (lit "lessdot", PSimple (binary 8918)) (* 904 *);
  (lit "smallsetminus", PSimple (EvContent (CBinaryOp 8726 false))) (* 905 *);
  (lit "barwedge", PSimple (binary 8965)) (* 909 *);
  (lit "curlyvee", PSimple (binary 8910)) (* 910 *);
  (lit "curlywedge", PSimple (binary 8911)) (* 911 *);
  (lit "sslash", PSimple (binary 11005)) (* 912 *);
  (lit "div", PSimple (binary 247)) (* 913 *);
  (lit "mp", PSimple (binary 8723)) (* 914 *);
  (lit "times", PSimple (binary 215)) (* 915 *);
  (lit "boxdot", PSimple (binary 8865)) (* 916 *);
  (lit "divideontimes", PSimple (binary 8903)) (* 917 *);
  (lit "odot", PSimple (binary 8857)) (* 918 *);
  (lit "unlhd", PSimple (binary 8884)) (* 919 *);
  (lit "boxminus", PSimple (binary 8863)) (* 920 *);
  (lit "dotplus", PSimple (binary 8724)) (* 921 *);
  (lit "ominus", PSimple (binary 8854)) (* 922 *);
  (lit "unrhd", PSimple (binary 8885)) (* 923 *);
  (lit "boxplus", PSimple (binary 8862)) (* 924 *);
  (lit "doublebarwedge", PSimple (binary 10846)) (* 925 *);
  (lit "oplus", PSimple (binary 8853)) (* 926 *);
  (lit "uplus", PSimple (binary 8846)) (* 927 *);
  (lit "boxtimes", PSimple (binary 8864)) (* 928 *);
  (lit "doublecap", PSimple (binary 8914)) (* 929 *);
  (lit "otimes", PSimple (binary 8855)) (* 930 *);
  (lit "vee", PSimple (binary 8744)) (* 931 *);
  (lit "veebar", PSimple (binary 8891)) (* 932 *);
  (lit "Cap", PSimple (binary 8914)) (* 933 *);
  (lit "parr", PSimple (binary 8523)) (* 934 *);
  (lit "wedge", PSimple (binary 8743)) (* 935 *);
  (lit "cap", PSimple (binary 8745)) (* 936 *);
  (lit "gtrdot", PSimple (binary 8919)) (* 937 *);
  (lit "pm", PSimple (binary 177)) (* 938 *);
  (lit "intercal", PSimple (binary 8890)) (* 939 *);
  (lit "wr", PSimple (binary 8768)) (* 940 *);
  (lit "circledvert", PSimple (binary 10678)) (* 941 *);
  (lit "blackhourglass", PSimple (binary 10711)) (* 942 *);
  (lit "circlehbar", PSimple (binary 10677)) (* 943 *);
  (lit "operp", PSimple (binary 10681)) (* 944 *);
  (lit "boxast", PSimple (binary 10694)) (* 945 *);
  (lit "boxbox", PSimple (binary 10696)) (* 946 *);
  (lit "oslash", PSimple (binary 8856)) (* 947 *);
  (lit "boxcircle", PSimple (binary 10695)) (* 948 *);
  (lit "diamond", PSimple (binary 8900)) (* 949 *);
  (lit "Otimes", PSimple (binary 10807)) (* 950 *);
  (lit "hourglass", PSimple (binary 10710)) (* 951 *);
  (lit "otimeshat", PSimple (binary 10806)) (* 952 *);
  (lit "triangletimes", PSimple (binary 10811)) (* 953 *);
  (lit "lozengeminus", PSimple (binary 10208)) (* 954 *);
  (lit "star", PSimple (binary 8902)) (* 955 *);
  (lit "obar", PSimple (binary 9021)) (* 956 *);
  (lit "obslash", PSimple (binary 10680)) (* 957 *);
  (lit "triangleminus", PSimple (binary 10810)) (* 958 *);
  (lit "odiv", PSimple (binary 10808)) (* 959 *);
  (lit "triangleplus", PSimple (binary 10809)) (* 960 *);
  (lit "circledequal", PSimple (binary 8860)) (* 961 *);
  (lit "ogreaterthan", PSimple (binary 10689)) (* 962 *);
  (lit "circledparallel", PSimple (binary 10679)) (* 963 *);
  (lit "olessthan", PSimple (binary 10688)) (* 964 *);
  (lit "eqcirc", PSimple (relation 8790)) (* 969 *);
  (lit "lessgtr", PSimple (relation 8822)) (* 970 *);
  (lit "smile", PSimple (relation 8995)) (* 971 *);
  (lit "sincoh", PSimple (relation 8995)) (* 971 *);
  (lit "eqcolon", PSimple (relation 8761)) (* 972 *);
  (lit "minuscolon", PSimple (relation 8761)) (* 972 *);
  (lit "lesssim", PSimple (relation 8818)) (* 973 *);
  (lit "sqsubset", PSimple (relation 8847)) (* 974 *);
  (lit "ll", PSimple (relation 8810)) (* 975 *);
  (lit "sqsubseteq", PSimple (relation 8849)) (* 976 *);
  (lit "eqqcolon", PSimple (relation 8789)) (* 977 *);
  (lit "lll", PSimple (relation 8920)) (* 978 *);
  (lit "sqsupset", PSimple (relation 8848)) (* 979 *);
  (lit "llless", PSimple (relation 8920)) (* 980 *);
  (lit "sqsupseteq", PSimple (relation 8850)) (* 981 *);
  (lit "approx", PSimple (relation 8776)) (* 982 *);
  (lit "eqdef", PSimple (relation 8797)) (* 983 *);
  (lit "lt", PSimple (relation 60)) (* 984 *);
  (lit "stareq", PSimple (relation 8795)) (* 985 *);
  (lit "approxeq", PSimple (relation 8778)) (* 986 *);
  (lit "eqsim", PSimple (relation 8770)) (* 987 *);
  (lit "measeq", PSimple (relation 8798)) (* 988 *);
  (lit "Subset", PSimple (relation 8912)) (* 989 *);
  (lit "arceq", PSimple (relation 8792)) (* 990 *);
  (lit "eqslantgtr", PSimple (relation 10902)) (* 991 *);
  (lit "eqslantless", PSimple (relation 10901)) (* 992 *);
  (lit "models", PSimple (relation 8872)) (* 993 *);
  (lit "subseteq", PSimple (relation 8838)) (* 994 *);
  (lit "backcong", PSimple (relation 8780)) (* 995 *);
  (lit "equiv", PSimple (relation 8801)) (* 996 *);
  (lit "multimap", PSimple (relation 8888)) (* 997 *);
  (lit "subseteqq", PSimple (relation 10949)) (* 998 *);
  (lit "fallingdotseq", PSimple (relation 8786)) (* 999 *);
  (lit "multimapboth", PSimple (relation 10719)) (* 1000 *);
  (lit "succ", PSimple (relation 8827)) (* 1001 *);
  (lit "backsim", PSimple (relation 8765)) (* 1002 *);
  (lit "frown", PSimple (relation 8994)) (* 1003 *);
  (lit "multimapinv", PSimple (relation 10204)) (* 1004 *);
  (lit "succapprox", PSimple (relation 10936)) (* 1005 *);
  (lit "backsimeq", PSimple (relation 8909)) (* 1006 *);
  (lit "ge", PSimple (relation 8805)) (* 1007 *);
  (lit "origof", PSimple (relation 8886)) (* 1008 *);
  (lit "succcurlyeq", PSimple (relation 8829)) (* 1009 *);
  (lit "between", PSimple (relation 8812)) (* 1010 *);
  (lit "geq", PSimple (relation 8805)) (* 1011 *);
  (lit "owns", PSimple (relation 8715)) (* 1012 *);
  (lit "succeq", PSimple (relation 10928)) (* 1013 *);
  (lit "bumpeq", PSimple (relation 8783)) (* 1014 *);
  (lit "geqq", PSimple (relation 8807)) (* 1015 *);
  (lit "parallel", PSimple (relation 8741)) (* 1016 *);
  (lit "succsim", PSimple (relation 8831)) (* 1017 *);
  (lit "Bumpeq", PSimple (relation 8782)) (* 1018 *);
  (lit "geqslant", PSimple (relation 10878)) (* 1019 *);
  (lit "perp", PSimple (relation 10178)) (* 1020 *);
  (lit "Supset", PSimple (relation 8913)) (* 1021 *);
  (lit "circeq", PSimple (relation 8791)) (* 1022 *);
  (lit "gg", PSimple (relation 8811)) (* 1023 *);
  (lit "Perp", PSimple (relation 10987)) (* 1024 *);
  (lit "coh", PSimple (relation 8994)) (* 1025 *);
  (lit "ggg", PSimple (relation 8921)) (* 1026 *);
  (lit "pitchfork", PSimple (relation 8916)) (* 1027 *);
  (lit "supseteq", PSimple (relation 8839)) (* 1028 *);
  (lit "gggtr", PSimple (relation 8921)) (* 1029 *);
  (lit "prec", PSimple (relation 8826)) (* 1030 *);
  (lit "supseteqq", PSimple (relation 10950)) (* 1031 *);
  (lit "gt", PSimple (relation 62)) (* 1032 *);
  (lit "precapprox", PSimple (relation 10935)) (* 1033 *);
  (lit "thickapprox", PSimple (relation 8776)) (* 1034 *);
  (lit "gtrapprox", PSimple (relation 10886)) (* 1035 *);
  (lit "preccurlyeq", PSimple (relation 8828)) (* 1036 *);
  (lit "thicksim", PSimple (relation 8764)) (* 1037 *);
  (lit "gtreqless", PSimple (relation 8923)) (* 1038 *);
  (lit "preceq", PSimple (relation 10927)) (* 1039 *);
  (lit "trianglelefteq", PSimple (relation 8884)) (* 1040 *);
  (lit "coloneqq", PSimple (relation 8788)) (* 1041 *);
  (lit "colonequals", PSimple (relation 8788)) (* 1041 *);
  (lit "gtreqqless", PSimple (relation 10892)) (* 1042 *);
  (lit "precsim", PSimple (relation 8830)) (* 1043 *);
  (lit "triangleq", PSimple (relation 8796)) (* 1044 *);
  (lit "Coloneqq", PSimple (relation 10868)) (* 1045 *);
  (lit "coloncolonequals", PSimple (relation 10868)) (* 1045 *);
  (lit "gtrless", PSimple (relation 8823)) (* 1046 *);
  (lit "propto", PSimple (relation 8733)) (* 1047 *);
  (lit "trianglerighteq", PSimple (relation 8885)) (* 1048 *);
  (lit "gtrsim", PSimple (relation 8819)) (* 1049 *);
  (lit "questeq", PSimple (relation 8799)) (* 1050 *);
  (lit "varpropto", PSimple (relation 8733)) (* 1051 *);
  (lit "imageof", PSimple (relation 8887)) (* 1052 *);
  (lit "cong", PSimple (relation 8773)) (* 1053 *);
  (lit "risingdotseq", PSimple (relation 8787)) (* 1054 *);
  (lit "vartriangleleft", PSimple (relation 8882)) (* 1055 *);
  (lit "curlyeqprec", PSimple (relation 8926)) (* 1056 *);
  (lit "scoh", PSimple (relation 8994)) (* 1057 *);
  (lit "vartriangleright", PSimple (relation 8883)) (* 1058 *);
  (lit "curlyeqsucc", PSimple (relation 8927)) (* 1059 *);
  (lit "le", PSimple (relation 8804)) (* 1060 *);
  (lit "shortmid", PSimple (EvContent (CRelation 8739 None true))) (* 1061 *);
  (lit "shortparallel", PSimple (EvContent (CRelation 8741 None true))) (* 1065 *);
  (lit "vdash", PSimple (relation 8866)) (* 1069 *);
  (lit "dashv", PSimple (relation 8867)) (* 1070 *);
  (lit "leq", PSimple (relation 8804)) (* 1071 *);
  (lit "vDash", PSimple (relation 8872)) (* 1072 *);
  (lit "dblcolon", PSimple (relation 8759)) (* 1073 *);
  (lit "coloncolon", PSimple (relation 8759)) (* 1073 *);
  (lit "leqq", PSimple (relation 8806)) (* 1074 *);
  (lit "sim", PSimple (relation 8764)) (* 1075 *);
  (lit "Vdash", PSimple (relation 8873)) (* 1076 *);
  (lit "doteq", PSimple (relation 8784)) (* 1077 *);
  (lit "leqslant", PSimple (relation 10877)) (* 1078 *);
  (lit "simeq", PSimple (relation 8771)) (* 1079 *);
  (lit "Dash", PSimple (relation 8875)) (* 1080 *);
  (lit "Doteq", PSimple (relation 8785)) (* 1081 *);
  (lit "lessapprox", PSimple (relation 10885)) (* 1082 *);
  (lit "Vvdash", PSimple (relation 8874)) (* 1083 *);
  (lit "doteqdot", PSimple (relation 8785)) (* 1084 *);
  (lit "lesseqgtr", PSimple (relation 8922)) (* 1085 *);
  (lit "smallfrown", PSimple (relation 8994)) (* 1086 *);
  (lit "veeeq", PSimple (relation 8794)) (* 1087 *);
  (lit "eqeq", PSimple (relation 10869)) (* 1088 *);
  (lit "lesseqqgtr", PSimple (relation 10891)) (* 1089 *);
  (lit "smallsmile", PSimple (EvContent (CRelation 8995 None true))) (* 1090 *);
  (lit "wedgeq", PSimple (relation 8793)) (* 1094 *);
  (lit "bowtie", PSimple (relation 8904)) (* 1095 *);
  (lit "Join", PSimple (relation 8904)) (* 1095 *);
  (lit "gnapprox", PSimple (relation 10890)) (* 1097 *);
  (lit "ngeqslant", PSimple (relation 8817)) (* 1098 *);
  (lit "nsubset", PSimple (relation 8836)) (* 1099 *);
  (lit "nVdash", PSimple (relation 8878)) (* 1100 *);
  (lit "gneq", PSimple (relation 10888)) (* 1101 *);
  (lit "ngtr", PSimple (relation 8815)) (* 1102 *);
  (lit "nsubseteq", PSimple (relation 8840)) (* 1103 *);
  (lit "precnapprox", PSimple (relation 10937)) (* 1104 *);
  (lit "gneqq", PSimple (relation 8809)) (* 1105 *);
  (lit "nleq", PSimple (relation 8816)) (* 1106 *);
  (lit "nsubseteqq", PSimple (relation 8840)) (* 1107 *);
  (lit "precneqq", PSimple (relation 10933)) (* 1108 *);
  (lit "gnsim", PSimple (relation 8935)) (* 1109 *);
  (lit "nleqq", PSimple (relation 8816)) (* 1110 *);
  (lit "nsucc", PSimple (relation 8833)) (* 1111 *);
  (lit "precnsim", PSimple (relation 8936)) (* 1112 *);
  (lit "nleqslant", PSimple (relation 8816)) (* 1113 *);
  (lit "nsucceq", PSimple (relation 8929)) (* 1114 *);
  (lit "subsetneq", PSimple (relation 8842)) (* 1115 *);
  (lit "lnapprox", PSimple (relation 10889)) (* 1116 *);
  (lit "nless", PSimple (relation 8814)) (* 1117 *);
  (lit "nsupset", PSimple (relation 8837)) (* 1118 *);
  (lit "subsetneqq", PSimple (relation 10955)) (* 1119 *);
  (lit "lneq", PSimple (relation 10887)) (* 1120 *);
  (lit "nmid", PSimple (relation 8740)) (* 1121 *);
  (lit "nsupseteq", PSimple (relation 8841)) (* 1122 *);
  (lit "succnapprox", PSimple (relation 10938)) (* 1123 *);
  (lit "lneqq", PSimple (relation 8808)) (* 1124 *);
  (lit "notin", PSimple (relation 8713)) (* 1125 *);
  (lit "nsupseteqq", PSimple (relation 8841)) (* 1126 *);
  (lit "succneqq", PSimple (relation 10934)) (* 1127 *);
  (lit "lnsim", PSimple (relation 8934)) (* 1128 *);
  (lit "ntriangleleft", PSimple (relation 8938)) (* 1129 *);
  (lit "succnsim", PSimple (relation 8937)) (* 1130 *);
  (lit "nparallel", PSimple (relation 8742)) (* 1131 *);
  (lit "ntrianglelefteq", PSimple (relation 8940)) (* 1132 *);
  (lit "supsetneq", PSimple (relation 8843)) (* 1133 *);
  (lit "ncong", PSimple (relation 8774)) (* 1134 *);
  (lit "nprec", PSimple (relation 8832)) (* 1135 *);
  (lit "ntriangleright", PSimple (relation 8939)) (* 1136 *);
  (lit "supsetneqq", PSimple (relation 10956)) (* 1137 *);
  (lit "ne", PSimple (relation 8800)) (* 1138 *);
  (lit "npreceq", PSimple (relation 8928)) (* 1139 *);
  (lit "ntrianglerighteq", PSimple (relation 8941)) (* 1140 *);
  (lit "neq", PSimple (relation 8800)) (* 1141 *);
  (lit "nshortmid", PSimple (EvContent (CRelation 8740 None true))) (* 1142 *);
  (lit "nvdash", PSimple (relation 8876)) (* 1146 *);
  (lit "ngeq", PSimple (relation 8817)) (* 1147 *);
  (lit "nshortparallel", PSimple (EvContent (CRelation 8742 None true))) (* 1148 *);
  (lit "nvDash", PSimple (relation 8877)) (* 1152 *);
  (lit "ngeqq", PSimple (relation 8817)) (* 1153 *);
  (lit "nsim", PSimple (relation 8769)) (* 1154 *);
  (lit "nVDash", PSimple (relation 8879)) (* 1155 *);
  (lit "varsupsetneqq", PSimple (multirelation 10956 65024)) (* 1156 *);
  (lit "varsubsetneqq", PSimple (multirelation 10955 65024)) (* 1157 *);
  (lit "varsubsetneq", PSimple (multirelation 8842 65024)) (* 1158 *);
  (lit "varsupsetneq", PSimple (multirelation 8843 65024)) (* 1159 *);
  (lit "gvertneqq", PSimple (multirelation 8809 65024)) (* 1160 *);
  (lit "lvertneqq", PSimple (multirelation 8808 65024)) (* 1161 *);
  (lit "Eqcolon", PSimple (multirelation 8722 8759)) (* 1162 *);
  (lit "minuscoloncolon", PSimple (multirelation 8722 8759)) (* 1162 *);
  (lit "Eqqcolon", PSimple (multirelation 61 8759)) (* 1163 *);
  (lit "approxcolon", PSimple (multirelation 8776 58)) (* 1164 *);
  (lit "colonapprox", PSimple (multirelation 58 8776)) (* 1165 *);
  (lit "approxcoloncolon", PSimple (multirelation 8776 8759)) (* 1166 *);
  (lit "Colonapprox", PSimple (multirelation 8759 8776)) (* 1167 *);
  (lit "coloncolonapprox", PSimple (multirelation 8759 8776)) (* 1167 *);
  (lit "coloneq", PSimple (multirelation 58 8722)) (* 1168 *);
  (lit "colonminus", PSimple (multirelation 58 8722)) (* 1168 *);
  (lit "Coloneq", PSimple (multirelation 8759 8722)) (* 1169 *);
  (lit "coloncolonminus", PSimple (multirelation 8759 8722)) (* 1169 *);
  (lit "colonsim", PSimple (multirelation 58 8764)) (* 1170 *);
  (lit "Colonsim", PSimple (multirelation 8759 8764)) (* 1171 *);
  (lit "coloncolonsim", PSimple (multirelation 8759 8764)) (* 1171 *);
  (lit "circlearrowleft", PSimple (relation 8634)) (* 1176 *);
  (lit "Leftrightarrow", PSimple (relation 8660)) (* 1177 *);
  (lit "restriction", PSimple (relation 8638)) (* 1178 *);
  (lit "circlearrowright", PSimple (relation 8635)) (* 1179 *);
  (lit "leftrightarrows", PSimple (relation 8646)) (* 1180 *);
  (lit "rightarrow", PSimple (relation 8594)) (* 1181 *);
  (lit "curvearrowleft", PSimple (relation 8630)) (* 1182 *);
  (lit "leftrightharpoons", PSimple (relation 8651)) (* 1183 *);
  (lit "Rightarrow", PSimple (relation 8658)) (* 1184 *);
  (lit "curvearrowright", PSimple (relation 8631)) (* 1185 *);
  (lit "leftrightsquigarrow", PSimple (relation 8621)) (* 1186 *);
  (lit "rightarrowtail", PSimple (relation 8611)) (* 1187 *);
  (lit "dashleftarrow", PSimple (relation 8672)) (* 1188 *);
  (lit "Lleftarrow", PSimple (relation 8666)) (* 1189 *);
  (lit "rightharpoondown", PSimple (relation 8641)) (* 1190 *);
  (lit "dashrightarrow", PSimple (relation 8674)) (* 1191 *);
  (lit "longleftarrow", PSimple (relation 10229)) (* 1192 *);
  (lit "rightharpoonup", PSimple (relation 8640)) (* 1193 *);
  (lit "downarrow", PSimple (relation 8595)) (* 1194 *);
  (lit "Longleftarrow", PSimple (relation 10232)) (* 1195 *);
  (lit "rightleftarrows", PSimple (relation 8644)) (* 1196 *);
  (lit "Downarrow", PSimple (relation 8659)) (* 1197 *);
  (lit "longleftrightarrow", PSimple (relation 10231)) (* 1198 *);
  (lit "rightleftharpoons", PSimple (relation 8652)) (* 1199 *);
  (lit "downdownarrows", PSimple (relation 8650)) (* 1200 *);
  (lit "Longleftrightarrow", PSimple (relation 10234)) (* 1201 *);
  (lit "rightrightarrows", PSimple (relation 8649)) (* 1202 *);
  (lit "downharpoonleft", PSimple (relation 8643)) (* 1203 *);
  (lit "longmapsto", PSimple (relation 10236)) (* 1204 *);
  (lit "rightsquigarrow", PSimple (relation 8669)) (* 1205 *);
  (lit "downharpoonright", PSimple (relation 8642)) (* 1206 *);
  (lit "longrightarrow", PSimple (relation 10230)) (* 1207 *);
  (lit "Rrightarrow", PSimple (relation 8667)) (* 1208 *);
  (lit "Longrightarrow", PSimple (relation 10233)) (* 1209 *);
  (lit "Rsh", PSimple (relation 8625)) (* 1210 *);
  (lit "hookleftarrow", PSimple (relation 8617)) (* 1211 *);
  (lit "looparrowleft", PSimple (relation 8619)) (* 1212 *);
  (lit "searrow", PSimple (relation 8600)) (* 1213 *);
  (lit "hookrightarrow", PSimple (relation 8618)) (* 1214 *);
  (lit "looparrowright", PSimple (relation 8620)) (* 1215 *);
  (lit "swarrow", PSimple (relation 8601)) (* 1216 *);
  (lit "Lsh", PSimple (relation 8624)) (* 1217 *);
  (lit "mapsfrom", PSimple (relation 8612)) (* 1218 *);
  (lit "twoheadleftarrow", PSimple (relation 8606)) (* 1219 *);
  (lit "twoheadrightarrow", PSimple (relation 8608)) (* 1220 *);
  (lit "leadsto", PSimple (relation 8669)) (* 1221 *);
  (lit "nearrow", PSimple (relation 8599)) (* 1222 *);
  (lit "uparrow", PSimple (relation 8593)) (* 1223 *);
  (lit "leftarrow", PSimple (relation 8592)) (* 1224 *);
  (lit "nleftarrow", PSimple (relation 8602)) (* 1225 *);
  (lit "Uparrow", PSimple (relation 8657)) (* 1226 *);
  (lit "Leftarrow", PSimple (relation 8656)) (* 1227 *);
  (lit "nLeftarrow", PSimple (relation 8653)) (* 1228 *);
  (lit "updownarrow", PSimple (relation 8597)) (* 1229 *);
  (lit "leftarrowtail", PSimple (relation 8610)) (* 1230 *);
  (lit "nleftrightarrow", PSimple (relation 8622)) (* 1231 *);
  (lit "Updownarrow", PSimple (relation 8661)) (* 1232 *);
  (lit "leftharpoondown", PSimple (relation 8637)) (* 1233 *);
  (lit "nLeftrightarrow", PSimple (relation 8654)) (* 1234 *);
  (lit "upharpoonleft", PSimple (relation 8639)) (* 1235 *);
  (lit "leftharpoonup", PSimple (relation 8636)) (* 1236 *);
  (lit "nrightarrow", PSimple (relation 8603)) (* 1237 *);
  (lit "upharpoonright", PSimple (relation 8638)) (* 1238 *);
  (lit "leftleftarrows", PSimple (relation 8647)) (* 1239 *);
  (lit "nRightarrow", PSimple (relation 8655)) (* 1240 *);
  (lit "upuparrows", PSimple (relation 8648)) (* 1241 *);
  (lit "leftrightarrow", PSimple (relation 8596)) (* 1242 *);
  (lit "nwarrow", PSimple (relation 8598)) (* 1243 *);
  (lit "xleftarrow", PXArrow 8592) (* 1244 *);
  (lit "xrightarrow", PXArrow 8594) (* 1264 *);
  (lit "frac", PFraction None None None None) (* 1288 *);
  (lit "genfrac", PGenfrac) (* 1292 *);
  (lit "cfrac", PFraction None None None (Some SDisplay)) (* 1363 *);
  (lit "dfrac", PFraction None None None (Some SDisplay)) (* 1363 *);
  (lit "tfrac", PFraction None None None (Some SText)) (* 1367 *);
  (lit "binom", PFraction (Some 40) (Some 41) (Some dim_zero_em) None) (* 1371 *);
  (lit "dbinom", PFraction (Some 40) (Some 41) (Some dim_zero_em) (Some SDisplay)) (* 1380 *);
  (lit "tbinom", PFraction (Some 40) (Some 41) (Some dim_zero_em) (Some SText)) (* 1389 *);
  (lit "overset", POverset STSup) (* 1398 *);
  (lit "stackrel", POverset STSup) (* 1398 *);
  (lit "underset", POverset STSub) (* 1412 *);
  (lit "buildrel", PBuildrel) (* 1426 *);
  (lit "substack", PSubstack) (* 1441 *);
  (lit "sideset", PSideset) (* 1453 *);
  (lit "sqrt", PSqrt) (* 1464 *);
  (lit "surd", PSurd) (* 1480 *);
  (lit "backslash", PSimple (ordinary 92)) (* 1492 *);
  (lit "#", PSimple (ordinary 35)) (* 1497 *);
  (lit "%", PSimple (ordinary 37)) (* 1497 *);
  (lit "&", PSimple (ordinary 38)) (* 1497 *);
  (lit "$", PSimple (ordinary 36)) (* 1497 *);
  (lit "_", PSimple (ordinary 95)) (* 1497 *);
  (lit "|", PSimple (ordinary 8741)) (* 1502 *);
  (lit "text", PText None) (* 1504 *);
  (lit "textrm", PText (Some FUpRight)) (* 1507 *);
  (lit "textbf", PText (Some FBold)) (* 1508 *);
  (lit "textit", PText (Some FItalic)) (* 1509 *);
  (lit "textsf", PText (Some FSansSerif)) (* 1510 *);
  (lit "texttt", PText (Some FMonospace)) (* 1511 *);
  (lit "not", PNot) (* 1513 *);
  (lit "cancel", PNot) (* 1513 *);
  (lit "char", PChar) (* 1519 *);
  (lit "relax", PRelax) (* 1530 *);
  (lit "begingroup", PBegingroup) (* 1538 *);
  (lit "endgroup", PUnbalanced) (* 1550 *);
  (lit "begin", PBegin) (* 1552 *);
  (lit "end", PUnbalanced) (* 1901 *);
  (lit "\", PNewline) (* 1902 *);
  (lit "cr", PNewline) (* 1902 *);
  (lit "def", PDef) (* 1936 *);
  (lit "let", PLet) (* 1943 *);
  (lit "futurelet", PFuturelet) (* 1949 *);
  (lit "newcommand", PNewcommand (Some false)) (* 1957 *);
  (lit "renewcommand", PNewcommand (Some true)) (* 1958 *);
  (lit "providecommand", PNewcommand None) (* 1959 *)
].

(** The [match control_sequence] of [handle_primitive]: the literal arms above,
    then the delimiters (1923-1930), white space (1933) and [_] (1960). The
    arms "def" ... "providecommand" (1936-1959) come after those two in the
    source; no delimiter and no blank has such a name. *)
Definition lookup_prim (cs : str) : prim :=
  match assoc_str cs prim_table with
  | Some p => p
  | None =>
      match control_sequence_delimiter_map cs with
      | Some (c, ty) => PSimple (EvContent (CDelimiter c None ty))
      | None =>
          if is_nil (trim_start cs) then PSimple (EvContent (CText (lit "&nbsp;")))
          else PUnknown
      end
  end.
