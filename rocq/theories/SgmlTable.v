(** Data of include/stdex/sgml_unicode.hpp (generated by tools/gen_sgml.py from the header). *)
From Coq Require Import String Ascii.
From Verif Require Import Base.

(** The character codes of an ASCII string. *)
Definition codes (s : string) : list Z := map (fun a => Z.of_N (N_of_ascii a)) (list_ascii_of_string s).
(** sgml_unicode.hpp:20-23: one entry; the two arrays are represented without their terminating zeros *)
Definition E (name : string) (uni : list Z) : list Z * list Z := (codes name, uni).

Local Open Scope string_scope.
(** sgml_unicode.hpp:25-1561 *)
Definition sgml_unicode : list (list Z * list Z) := [
E "AElig" [198]; E "Aacgr" [902]; E "Aacute" [193]; E "Aacute" [65;769]; E "Abreve" [258]; E "Abreve" [65;774]; E "Abring" [65;815]; E
"Acaron" [65;780]; E "Acirc" [194]; E "Acirc" [65;770]; E "Acy" [1040]; E "Adot" [65;775]; E "Agr" [913]; E "Agrave" [192]; E "Agrave" [65;768]; E
"Alpha" [913]; E "Amacr" [256]; E "Amacr" [65;772]; E "Aogon" [260]; E "Aring" [197]; E "Atilde" [195]; E "Atilde" [65;771]; E "Auml" [196]; E
"Auml" [65;776]; E "Bacute" [66;769]; E "Barwed" [8966]; E "Bbreve" [66;774]; E "Bbring" [66;815]; E "Bcaron" [66;780]; E "Bcirc" [66;770]; E
"Bcy" [1041]; E "Bdot" [66;775]; E "Beta" [914]; E "Bgr" [914]; E "Bgrave" [66;768]; E "Bmacr" [66;772]; E "Btilde" [66;771]; E "Buml" [66;776]; E
"CHcy" [1063]; E "Cacute" [262]; E "Cacute" [67;769]; E "Cap" [8914]; E "Cbreve" [67;774]; E "Cbring" [67;815]; E "Ccaron" [268]; E "Ccaron" [67;780];
E "Ccedil" [199]; E "Ccirc" [264]; E "Ccirc" [67;770]; E "Cdot" [266]; E "Cdot" [67;775]; E "Cgrave" [67;768]; E "Chi" [935]; E "Cmacr" [67;772]; E
"Ctilde" [67;771]; E "Cuml" [67;776]; E "Cup" [8915]; E "DJcy" [1026]; E "DScy" [1029]; E "DZcy" [1039]; E "Dacute" [68;769]; E "Dagger" [8225]; E
"Dbreve" [68;774]; E "Dbring" [68;815]; E "Dcaron" [270]; E "Dcaron" [68;780]; E "Dcirc" [68;770]; E "Dcy" [1044]; E "Ddot" [68;775]; E "Delta" [916];
E "Dgr" [916]; E "Dgrave" [68;768]; E "Dmacr" [68;772]; E "Dot" [168]; E "DotDot" [8412]; E "Dstrok" [272]; E "Dtilde" [68;771]; E "Duml" [68;776]; E
"EEacgr" [905]; E "EEgr" [919]; E "ENG" [330]; E "ETH" [208]; E "Eacgr" [904]; E "Eacute" [201]; E "Eacute" [69;769]; E "Ebreve" [69;774]; E
"Ebring" [69;815]; E "Ecaron" [282]; E "Ecaron" [69;780]; E "Ecirc" [202]; E "Ecirc" [69;770]; E "Ecy" [1069]; E "Edot" [278]; E "Edot" [69;775]; E
"Edotb" [7864]; E "Egr" [917]; E "Egrave" [200]; E "Egrave" [69;768]; E "Emacr" [274]; E "Emacr" [69;772]; E "Eogon" [280]; E "Epsilon" [917]; E
"Eta" [919]; E "Etilde" [69;771]; E "Euml" [203]; E "Euml" [69;776]; E "Facute" [70;769]; E "Fbreve" [70;774]; E "Fbring" [70;815]; E
"Fcaron" [70;780]; E "Fcirc" [70;770]; E "Fcy" [1060]; E "Fdot" [70;775]; E "Fgrave" [70;768]; E "Fmacr" [70;772]; E "Ftilde" [70;771]; E
"Fuml" [70;776]; E "GJcy" [1027]; E "Gacute" [71;769]; E "Gamma" [915]; E "Gbreve" [286]; E "Gbreve" [71;774]; E "Gbring" [71;815]; E
"Gcaron" [71;780]; E "Gcedil" [290]; E "Gcirc" [284]; E "Gcirc" [71;770]; E "Gcy" [1043]; E "Gdot" [288]; E "Gdot" [71;775]; E "Gg" [8921]; E
"Ggr" [915]; E "Ggrave" [71;768]; E "Gmacr" [71;772]; E "Gt" [8811]; E "Gtilde" [71;771]; E "Guml" [71;776]; E "HARDcy" [1066]; E "Hacute" [72;769]; E
"Hbreve" [72;774]; E "Hbring" [72;815]; E "Hcaron" [72;780]; E "Hcirc" [292]; E "Hcirc" [72;770]; E "Hdot" [72;775]; E "Hgrave" [72;768]; E
"Hmacr" [72;772]; E "Hstrok" [294]; E "Htilde" [72;771]; E "Huml" [72;776]; E "IEcy" [1045]; E "IJlig" [306]; E "IOcy" [1025]; E "Iacgr" [906]; E
"Iacute" [205]; E "Iacute" [73;769]; E "Ibreve" [73;774]; E "Ibring" [73;815]; E "Icaron" [73;780]; E "Icirc" [206]; E "Icirc" [73;770]; E
"Icy" [1048]; E "Idigr" [938]; E "Idot" [304]; E "Idot" [73;775]; E "Igr" [921]; E "Igrave" [204]; E "Igrave" [73;768]; E "Imacr" [298]; E
"Imacr" [73;772]; E "Iogon" [302]; E "Iota" [921]; E "Itilde" [296]; E "Itilde" [73;771]; E "Iukcy" [1030]; E "Iuml" [207]; E "Iuml" [73;776]; E
"Jacute" [74;769]; E "Jbreve" [74;774]; E "Jbring" [74;815]; E "Jcaron" [74;780]; E "Jcirc" [308]; E "Jcirc" [74;770]; E "Jcy" [1049]; E
"Jdot" [74;775]; E "Jgrave" [74;768]; E "Jmacr" [74;772]; E "Jsercy" [1032]; E "Jtilde" [74;771]; E "Jukcy" [1028]; E "Juml" [74;776]; E
"KHcy" [1061]; E "KHgr" [935]; E "KJcy" [1036]; E "Kacute" [75;769]; E "Kappa" [922]; E "Kbreve" [75;774]; E "Kbring" [75;815]; E "Kcaron" [75;780]; E
"Kcedil" [310]; E "Kcirc" [75;770]; E "Kcy" [1050]; E "Kdot" [75;775]; E "Kgr" [922]; E "Kgrave" [75;768]; E "Kmacr" [75;772]; E "Ktilde" [75;771]; E
"Kuml" [75;776]; E "LJcy" [1033]; E "Lacute" [313]; E "Lacute" [76;769]; E "Lambda" [923]; E "Larr" [8606]; E "Lbreve" [76;774]; E "Lbring" [76;815];
E "Lcaron" [317]; E "Lcaron" [76;780]; E "Lcedil" [315]; E "Lcirc" [76;770]; E "Lcy" [1051]; E "Ldot" [76;775]; E "Lgr" [923]; E "Lgrave" [76;768]; E
"Ll" [8920]; E "Lmacr" [76;772]; E "Lmidot" [319]; E "Lstrok" [321]; E "Lt" [8810]; E "Ltilde" [76;771]; E "Luml" [76;776]; E "Macute" [77;769]; E
"Mbreve" [77;774]; E "Mbring" [77;815]; E "Mcaron" [77;780]; E "Mcirc" [77;770]; E "Mcy" [1052]; E "Mdot" [77;775]; E "Mgr" [924]; E
"Mgrave" [77;768]; E "Mmacr" [77;772]; E "Mtilde" [77;771]; E "Mu" [924]; E "Muml" [77;776]; E "NJcy" [1034]; E "Nacute" [323]; E "Nacute" [78;769]; E
"Nbreve" [78;774]; E "Nbring" [78;815]; E "Ncaron" [327]; E "Ncaron" [78;780]; E "Ncedil" [325]; E "Ncirc" [78;770]; E "Ncy" [1053]; E
"Ndot" [78;775]; E "Ngr" [925]; E "Ngrave" [78;768]; E "Nmacr" [78;772]; E "Ntilde" [209]; E "Ntilde" [78;771]; E "Nu" [925]; E "Numl" [78;776]; E
"OElig" [338]; E "OHacgr" [911]; E "OHgr" [937]; E "Oacgr" [908]; E "Oacute" [211]; E "Oacute" [79;769]; E "Obreve" [79;774]; E "Obring" [79;815]; E
"Ocaron" [465]; E "Ocaron" [79;780]; E "Ocirc" [212]; E "Ocirc" [79;770]; E "Ocy" [1054]; E "Odblac" [336]; E "Odot" [79;775]; E "Odotb" [7884]; E
"Ogr" [927]; E "Ograve" [210]; E "Ograve" [79;768]; E "Omacr" [332]; E "Omacr" [79;772]; E "Omega" [937]; E "Omicron" [927]; E "Oslash" [216]; E
"Otilde" [213]; E "Otilde" [79;771]; E "Ouml" [214]; E "Ouml" [79;776]; E "PHgr" [934]; E "PSgr" [936]; E "Pacute" [80;769]; E "Pbreve" [80;774]; E
"Pbring" [80;815]; E "Pcaron" [80;780]; E "Pcirc" [80;770]; E "Pcy" [1055]; E "Pdot" [80;775]; E "Pgr" [928]; E "Pgrave" [80;768]; E "Phi" [934]; E
"Pi" [928]; E "Pmacr" [80;772]; E "Prime" [8243]; E "Psi" [936]; E "Ptilde" [80;771]; E "Puml" [80;776]; E "Qacute" [81;769]; E "Qbreve" [81;774]; E
"Qbring" [81;815]; E "Qcaron" [81;780]; E "Qcirc" [81;770]; E "Qdot" [81;775]; E "Qgrave" [81;768]; E "Qmacr" [81;772]; E "Qtilde" [81;771]; E
"Quml" [81;776]; E "Racute" [340]; E "Racute" [82;769]; E "Rarr" [8608]; E "Rbreve" [82;774]; E "Rbring" [82;815]; E "Rcaron" [344]; E
"Rcaron" [82;780]; E "Rcedil" [342]; E "Rcirc" [82;770]; E "Rcy" [1056]; E "Rdot" [82;775]; E "Rgr" [929]; E "Rgrave" [82;768]; E "Rho" [929]; E
"Rmacr" [82;772]; E "Rtilde" [82;771]; E "Ruml" [82;776]; E "SHCHcy" [1065]; E "SHcy" [1064]; E "SOFTcy" [1068]; E "Sacute" [346]; E
"Sacute" [83;769]; E "Sbreve" [83;774]; E "Sbring" [83;815]; E "Scaron" [352]; E "Scaron" [83;780]; E "Scedil" [350]; E "Scirc" [348]; E
"Scirc" [83;770]; E "Scy" [1057]; E "Sdot" [83;775]; E "Sgr" [931]; E "Sgrave" [83;768]; E "Sigma" [931]; E "Smacr" [83;772]; E "Stilde" [83;771]; E
"Sub" [8912]; E "Suml" [83;776]; E "Sup" [8913]; E "THORN" [222]; E "THgr" [920]; E "TSHcy" [1035]; E "TScy" [1062]; E "Tacute" [84;769]; E
"Tau" [932]; E "Tbreve" [84;774]; E "Tbring" [84;815]; E "Tcaron" [356]; E "Tcaron" [84;780]; E "Tcedil" [354]; E "Tcirc" [84;770]; E "Tcy" [1058]; E
"Tdot" [84;775]; E "Tgr" [932]; E "Tgrave" [84;768]; E "Theta" [920]; E "Tmacr" [84;772]; E "Tstrok" [358]; E "Ttilde" [84;771]; E "Tuml" [84;776]; E
"Uacgr" [910]; E "Uacute" [218]; E "Uacute" [85;769]; E "Ubrcy" [1038]; E "Ubreve" [364]; E "Ubreve" [85;774]; E "Ubring" [85;815]; E
"Ucaron" [85;780]; E "Ucirc" [219]; E "Ucirc" [85;770]; E "Ucy" [1059]; E "Udblac" [368]; E "Udigr" [939]; E "Udot" [85;775]; E "Ugr" [933]; E
"Ugrave" [217]; E "Ugrave" [85;768]; E "Umacr" [362]; E "Umacr" [85;772]; E "Uogon" [370]; E "Upsi" [933]; E "Upsilon" [933]; E "Uring" [366]; E
"Utilde" [360]; E "Utilde" [85;771]; E "Uuml" [220]; E "Uuml" [85;776]; E "Vacute" [86;769]; E "Vbreve" [86;774]; E "Vbring" [86;815]; E
"Vcaron" [86;780]; E "Vcirc" [86;770]; E "Vcy" [1042]; E "Vdash" [8873]; E "Vdot" [86;775]; E "Verbar" [8214]; E "Vgrave" [86;768]; E
"Vmacr" [86;772]; E "Vtilde" [86;771]; E "Vuml" [86;776]; E "Vvdash" [8874]; E "Wacute" [87;769]; E "Wbreve" [87;774]; E "Wbring" [87;815]; E
"Wcaron" [87;780]; E "Wcirc" [372]; E "Wcirc" [87;770]; E "Wdot" [87;775]; E "Wgrave" [87;768]; E "Wmacr" [87;772]; E "Wtilde" [87;771]; E
"Wuml" [87;776]; E "Xacute" [88;769]; E "Xbreve" [88;774]; E "Xbring" [88;815]; E "Xcaron" [88;780]; E "Xcirc" [88;770]; E "Xdot" [88;775]; E
"Xgr" [926]; E "Xgrave" [88;768]; E "Xi" [926]; E "Xmacr" [88;772]; E "Xtilde" [88;771]; E "Xuml" [88;776]; E "YAcy" [1071]; E "YIcy" [1031]; E
"YUcy" [1070]; E "Yacute" [221]; E "Yacute" [89;769]; E "Ybreve" [89;774]; E "Ybring" [89;815]; E "Ycaron" [89;780]; E "Ycirc" [374]; E
"Ycirc" [89;770]; E "Ycy" [1067]; E "Ydot" [89;775]; E "Ygrave" [89;768]; E "Ymacr" [89;772]; E "Ytilde" [89;771]; E "Yuml" [376]; E "Yuml" [89;776];
E "ZHcy" [1046]; E "Zacute" [377]; E "Zacute" [90;769]; E "Zbreve" [90;774]; E "Zbring" [90;815]; E "Zcaron" [381]; E "Zcaron" [90;780]; E
"Zcirc" [90;770]; E "Zcy" [1047]; E "Zdot" [379]; E "Zdot" [90;775]; E "Zeta" [918]; E "Zgr" [918]; E "Zgrave" [90;768]; E "Zmacr" [90;772]; E
"Ztilde" [90;771]; E "Zuml" [90;776]; E "aacgr" [940]; E "aacute" [225]; E "aacute" [97;769]; E "abreve" [259]; E "abreve" [97;774]; E
"abring" [97;815]; E "acaron" [97;780]; E "acirc" [226]; E "acirc" [97;770]; E "acute" [180]; E "acy" [1072]; E "adot" [97;775]; E "aelig" [230]; E
"agr" [945]; E "agrave" [224]; E "agrave" [97;768]; E "alefsym" [8501]; E "aleph" [8501]; E "alpha" [945]; E "amacr" [257]; E "amacr" [97;772]; E
"amalg" [8720]; E "amp" [38]; E "and" [8743]; E "ang" [8736]; E "ang90" [8735]; E "angmsd" [8737]; E "angsph" [8738]; E "angst" [8491]; E
"aogon" [261]; E "ap" [8776]; E "ape" [8778]; E "apos" [39]; E "apos" [700]; E "aring" [229]; E "ast" [42]; E "asymp" [8776]; E "atilde" [227]; E
"atilde" [97;771]; E "auml" [228]; E "auml" [97;776]; E "b.Delta" [916]; E "b.Gamma" [915]; E "b.Lambda" [923]; E "b.Omega" [937]; E "b.Phi" [934]; E
"b.Pi" [928]; E "b.Psi" [936]; E "b.Sigma" [931]; E "b.Theta" [920]; E "b.Upsi" [933]; E "b.Xi" [926]; E "b.alpha" [945]; E "b.beta" [946]; E
"b.chi" [967]; E "b.delta" [948]; E "b.epsi" [949]; E "b.epsis" [949]; E "b.epsiv" [949]; E "b.eta" [951]; E "b.gamma" [947]; E "b.gammad" [988]; E
"b.iota" [953]; E "b.kappa" [954]; E "b.kappav" [1008]; E "b.lambda" [955]; E "b.mu" [956]; E "b.nu" [957]; E "b.omega" [974]; E "b.phis" [966]; E
"b.phiv" [981]; E "b.pi" [960]; E "b.piv" [982]; E "b.psi" [968]; E "b.rho" [961]; E "b.rhov" [1009]; E "b.sigma" [963]; E "b.sigmav" [962]; E
"b.tau" [964]; E "b.thetas" [952]; E "b.thetav" [977]; E "b.upsi" [965]; E "b.xi" [958]; E "b.zeta" [950]; E "bacute" [98;769]; E "barwed" [8892]; E
"bbreve" [98;774]; E "bbring" [98;815]; E "bcaron" [98;780]; E "bcirc" [98;770]; E "bcong" [8780]; E "bcy" [1073]; E "bdot" [98;775]; E
"bdquo" [8222]; E "becaus" [8757]; E "bepsi" [8717]; E "bernou" [8492]; E "beta" [946]; E "beth" [8502]; E "bgr" [946]; E "bgrave" [98;768]; E
"blank" [9251]; E "blk12" [9618]; E "blk14" [9617]; E "blk34" [9619]; E "block" [9608]; E "bmacr" [98;772]; E "bottom" [8869]; E "bowtie" [8904]; E
"boxDL" [9559]; E "boxDR" [9556]; E "boxDl" [9558]; E "boxDr" [9555]; E "boxH" [9552]; E "boxHD" [9574]; E "boxHU" [9577]; E "boxHd" [9572]; E
"boxHu" [9575]; E "boxUL" [9565]; E "boxUR" [9562]; E "boxUl" [9564]; E "boxUr" [9561]; E "boxV" [9553]; E "boxVH" [9580]; E "boxVL" [9571]; E
"boxVR" [9568]; E "boxVh" [9579]; E "boxVl" [9570]; E "boxVr" [9567]; E "boxdL" [9557]; E "boxdR" [9554]; E "boxdl" [9488]; E "boxdr" [9484]; E
"boxh" [9472]; E "boxhD" [9573]; E "boxhU" [9576]; E "boxhd" [9516]; E "boxhu" [9524]; E "boxuL" [9563]; E "boxuR" [9560]; E "boxul" [9496]; E
"boxur" [9492]; E "boxv" [9474]; E "boxvH" [9578]; E "boxvL" [9569]; E "boxvR" [9566]; E "boxvh" [9532]; E "boxvl" [9508]; E "boxvr" [9500]; E
"bprime" [8245]; E "breve" [728]; E "brvbar" [166]; E "bsim" [8765]; E "bsime" [8909]; E "bsol" [92]; E "btilde" [98;771]; E "bull" [8226]; E
"buml" [98;776]; E "bump" [8782]; E "bumpe" [8783]; E "cacute" [263]; E "cacute" [99;769]; E "cap" [8745]; E "caret" [8257]; E "caron" [711]; E
"cbreve" [99;774]; E "cbring" [99;815]; E "ccaron" [269]; E "ccaron" [99;780]; E "ccedil" [231]; E "ccirc" [265]; E "ccirc" [99;770]; E "cdot" [267];
E "cdot" [99;775]; E "cedil" [184]; E "cent" [162]; E "cgrave" [99;768]; E "chcy" [1095]; E "check" [10003]; E "chi" [967]; E "cir" [9675]; E
"circ" [710]; E "circlef" [9679]; E "circlefb" [9682]; E "circlefl" [9680]; E "circlefr" [9681]; E "circleft" [9683]; E "cire" [8791]; E
"clubs" [9827]; E "cmacr" [99;772]; E "colon" [58]; E "colone" [8788]; E "comma" [44]; E "commat" [64]; E "comp" [8705]; E "compfn" [8728]; E
"cong" [8773]; E "conint" [8750]; E "coprod" [8720]; E "copy" [169]; E "copysr" [8471]; E "crarr" [8629]; E "cross" [10007]; E "ctilde" [99;771]; E
"cuepr" [8926]; E "cuesc" [8927]; E "cularr" [8630]; E "cuml" [99;776]; E "cup" [8746]; E "cupre" [8828]; E "curarr" [8631]; E "curren" [164]; E
"cuvee" [8910]; E "cuwed" [8911]; E "dArr" [8659]; E "dacute" [100;769]; E "dagger" [8224]; E "daleth" [8504]; E "darr" [8595]; E "darr2" [8650]; E
"dash" [8208]; E "dashv" [8867]; E "dblac" [733]; E "dbreve" [100;774]; E "dbring" [100;815]; E "dcaron" [271]; E "dcaron" [100;780]; E
"dcirc" [100;770]; E "dcy" [1076]; E "ddot" [100;775]; E "deg" [176]; E "delta" [948]; E "dgr" [948]; E "dgrave" [100;768]; E "dharl" [8643]; E
"dharr" [8642]; E "diam" [8900]; E "diamondf" [9670]; E "diams" [9830]; E "die" [168]; E "divide" [247]; E "divonx" [8903]; E "djcy" [1106]; E
"dlarr" [8601]; E "dlcorn" [8990]; E "dlcrop" [8973]; E "dmacr" [100;772]; E "dollar" [36]; E "dot" [729]; E "drarr" [8600]; E "drcorn" [8991]; E
"drcrop" [8972]; E "dscy" [1109]; E "dstrok" [273]; E "dtilde" [100;771]; E "dtri" [9663]; E "dtrif" [9662]; E "duml" [100;776]; E "dzcy" [1119]; E
"eDot" [8785]; E "eacgr" [941]; E "eacute" [233]; E "eacute" [101;769]; E "ebreve" [101;774]; E "ebring" [101;815]; E "ecaron" [283]; E
"ecaron" [101;780]; E "ecir" [8790]; E "ecirc" [234]; E "ecirc" [101;770]; E "ecolon" [8789]; E "ecy" [1101]; E "edot" [279]; E "edot" [101;775]; E
"edotb" [7865]; E "eeacgr" [942]; E "eegr" [951]; E "efDot" [8786]; E "egr" [949]; E "egrave" [232]; E "egrave" [101;768]; E "egs" [8925]; E
"ell" [8467]; E "els" [8924]; E "emacr" [275]; E "emacr" [101;772]; E "empty" [8709]; E "emsp" [8195]; E "emsp13" [8196]; E "emsp14" [8197]; E
"eng" [331]; E "ensp" [8194]; E "eogon" [281]; E "epsi" [949]; E "epsilon" [949]; E "epsis" [8714]; E "equals" [61]; E "equiv" [8801]; E
"erDot" [8787]; E "esdot" [8784]; E "eta" [951]; E "eth" [240]; E "etilde" [101;771]; E "euml" [235]; E "euml" [101;776]; E "euro" [8364]; E
"excl" [33]; E "exist" [8707]; E "facute" [102;769]; E "fbreve" [102;774]; E "fbring" [102;815]; E "fcaron" [102;780]; E "fcirc" [102;770]; E
"fcy" [1092]; E "fdot" [102;775]; E "female" [9792]; E "ffilig" [64259]; E "fflig" [64256]; E "ffllig" [64260]; E "fgrave" [102;768]; E
"filig" [64257]; E "flat" [9837]; E "fllig" [64258]; E "fmacr" [102;772]; E "fnof" [402]; E "forall" [8704]; E "fork" [8916]; E "frac12" [189]; E
"frac13" [8531]; E "frac14" [188]; E "frac15" [8533]; E "frac16" [8537]; E "frac18" [8539]; E "frac23" [8532]; E "frac25" [8534]; E "frac34" [190]; E
"frac35" [8535]; E "frac38" [8540]; E "frac45" [8536]; E "frac56" [8538]; E "frac58" [8541]; E "frac78" [8542]; E "frasl" [8260]; E "frown" [8994]; E
"ftilde" [102;771]; E "fuml" [102;776]; E "gE" [8807]; E "gacute" [501]; E "gacute" [103;769]; E "gamma" [947]; E "gammad" [988]; E "gbreve" [287]; E
"gbreve" [103;774]; E "gbring" [103;815]; E "gcaron" [103;780]; E "gcedil" [291]; E "gcirc" [285]; E "gcirc" [103;770]; E "gcy" [1075]; E
"gdot" [289]; E "gdot" [103;775]; E "ge" [8805]; E "gel" [8923]; E "ges" [8805]; E "ggr" [947]; E "ggrave" [103;768]; E "gimel" [8503]; E
"gjcy" [1107]; E "gl" [8823]; E "gmacr" [103;772]; E "gnE" [8809]; E "gne" [8809]; E "gnsim" [8935]; E "grave" [96]; E "gsdot" [8919]; E
"gsim" [8819]; E "gt" [62]; E "gtilde" [103;771]; E "guml" [103;776]; E "gvnE" [8809]; E "hArr" [8660]; E "hacute" [104;769]; E "hairsp" [8202]; E
"half" [189]; E "hamilt" [8459]; E "hardcy" [1098]; E "harr" [8596]; E "harrw" [8621]; E "hbreve" [104;774]; E "hbring" [104;815]; E
"hcaron" [104;780]; E "hcirc" [293]; E "hcirc" [104;770]; E "hdot" [104;775]; E "hearts" [9829]; E "hellip" [8230]; E "hgrave" [104;768]; E
"hmacr" [104;772]; E "horbar" [8213]; E "hstrok" [295]; E "htilde" [104;771]; E "huml" [104;776]; E "hybull" [8259]; E "hyphen" [45]; E "iacgr" [943];
E "iacute" [237]; E "iacute" [105;769]; E "ibreve" [105;774]; E "ibring" [105;815]; E "icaron" [105;780]; E "icirc" [238]; E "icirc" [105;770]; E
"icy" [1080]; E "idiagr" [912]; E "idigr" [970]; E "idot" [105;775]; E "iecy" [1077]; E "iexcl" [161]; E "iff" [8660]; E "igr" [953]; E
"igrave" [236]; E "igrave" [105;768]; E "ijlig" [307]; E "imacr" [299]; E "imacr" [105;772]; E "image" [8465]; E "incare" [8453]; E "infin" [8734]; E
"inodot" [305]; E "inodot" [305]; E "int" [8747]; E "intcal" [8890]; E "iocy" [1105]; E "iogon" [303]; E "iota" [953]; E "iquest" [191]; E
"isin" [8712]; E "itilde" [297]; E "itilde" [105;771]; E "iukcy" [1110]; E "iuml" [239]; E "iuml" [105;776]; E "jacute" [106;769]; E
"jbreve" [106;774]; E "jbring" [106;815]; E "jcaron" [106;780]; E "jcirc" [309]; E "jcirc" [106;770]; E "jcy" [1081]; E "jdot" [106;775]; E
"jgrave" [106;768]; E "jmacr" [106;772]; E "jsercy" [1112]; E "jtilde" [106;771]; E "jukcy" [1108]; E "juml" [106;776]; E "kacute" [107;769]; E
"kappa" [954]; E "kappav" [1008]; E "kbreve" [107;774]; E "kbring" [107;815]; E "kcaron" [107;780]; E "kcedil" [311]; E "kcirc" [107;770]; E
"kcy" [1082]; E "kdot" [107;775]; E "kgr" [954]; E "kgrave" [107;768]; E "kgreen" [312]; E "khcy" [1093]; E "khgr" [967]; E "kjcy" [1116]; E
"kmacr" [107;772]; E "ktilde" [107;771]; E "kuml" [107;776]; E "lAarr" [8666]; E "lArr" [8656]; E "lE" [8806]; E "lacute" [314]; E "lacute" [108;769];
E "lagran" [8466]; E "lambda" [955]; E "lang" [9001]; E "laquo" [171]; E "larr" [8592]; E "larr2" [8647]; E "larrhk" [8617]; E "larrlp" [8619]; E
"larrtl" [8610]; E "lbreve" [108;774]; E "lbring" [108;815]; E "lcaron" [318]; E "lcaron" [108;780]; E "lcedil" [316]; E "lceil" [8968]; E
"lcirc" [108;770]; E "lcub" [123]; E "lcy" [1083]; E "ldot" [8918]; E "ldot" [108;775]; E "ldquo" [8220]; E "ldquor" [8222]; E "le" [8804]; E
"leg" [8922]; E "les" [8804]; E "lfloor" [8970]; E "lg" [8822]; E "lgr" [955]; E "lgrave" [108;768]; E "lhard" [8637]; E "lharu" [8636]; E
"lhblk" [9604]; E "ljcy" [1113]; E "lmacr" [108;772]; E "lmidot" [320]; E "lnE" [8808]; E "lne" [8808]; E "lnsim" [8934]; E "lowast" [8727]; E
"lowbar" [95]; E "loz" [9674]; E "loz" [10023]; E "lozf" [10022]; E "lpar" [40]; E "lrarr2" [8646]; E "lrhar2" [8651]; E "lrm" [8206]; E
"lsaquo" [8249]; E "lsh" [8624]; E "lsim" [8818]; E "lsqb" [91]; E "lsquo" [8216]; E "lsquor" [8218]; E "lstrok" [322]; E "lt" [60]; E
"lthree" [8907]; E "ltilde" [108;771]; E "ltimes" [8905]; E "ltri" [9667]; E "ltrie" [8884]; E "ltrif" [9666]; E "luml" [108;776]; E "lvnE" [8808]; E
"macr" [175]; E "macute" [109;769]; E "male" [9794]; E "malt" [10016]; E "map" [8614]; E "marker" [9646]; E "mbreve" [109;774]; E "mbring" [109;815];
E "mcaron" [109;780]; E "mcirc" [109;770]; E "mcy" [1084]; E "mdash" [8212]; E "mdot" [109;775]; E "mgr" [956]; E "mgrave" [109;768]; E "micro" [181];
E "mid" [8739]; E "middot" [183]; E "minus" [8722]; E "minusb" [8863]; E "mldr" [8230]; E "mmacr" [109;772]; E "mnplus" [8723]; E "models" [8871]; E
"mtilde" [109;771]; E "mu" [956]; E "mumap" [8888]; E "muml" [109;776]; E "nVDash" [8879]; E "nVdash" [8878]; E "nabla" [8711]; E "nacute" [324]; E
"nacute" [110;769]; E "nap" [8777]; E "napos" [329]; E "natur" [9838]; E "nbreve" [110;774]; E "nbring" [110;815]; E "nbsp" [160]; E "ncaron" [328]; E
"ncaron" [110;780]; E "ncedil" [326]; E "ncirc" [110;770]; E "ncong" [8775]; E "ncy" [1085]; E "ndash" [8211]; E "ndot" [110;775]; E "ne" [8800]; E
"nearr" [8599]; E "nequiv" [8802]; E "nexist" [8708]; E "nge" [8817]; E "nges" [8817]; E "ngr" [957]; E "ngrave" [110;768]; E "ngt" [8815]; E
"nhArr" [8654]; E "nharr" [8622]; E "ni" [8715]; E "njcy" [1114]; E "nlArr" [8653]; E "nlarr" [8602]; E "nldr" [8229]; E "nle" [8816]; E
"nles" [8816]; E "nlt" [8814]; E "nltri" [8938]; E "nltrie" [8940]; E "nmacr" [110;772]; E "nmid" [8740]; E "not" [172]; E "notin" [8713]; E
"npar" [8742]; E "npr" [8832]; E "npre" [8928]; E "nrArr" [8655]; E "nrarr" [8603]; E "nrtri" [8939]; E "nrtrie" [8941]; E "nsc" [8833]; E
"nsce" [8929]; E "nsim" [8769]; E "nsime" [8772]; E "nspar" [8742]; E "nsub" [8836]; E "nsubE" [8840]; E "nsube" [8840]; E "nsup" [8837]; E
"nsupE" [8841]; E "nsupe" [8841]; E "ntilde" [241]; E "ntilde" [110;771]; E "nu" [957]; E "num" [35]; E "numero" [8470]; E "numl" [110;776]; E
"numsp" [8199]; E "nvDash" [8877]; E "nvdash" [8876]; E "nwarr" [8598]; E "oS" [9416]; E "oacgr" [972]; E "oacute" [243]; E "oacute" [111;769]; E
"oast" [8859]; E "obreve" [111;774]; E "obring" [111;815]; E "ocaron" [466]; E "ocaron" [111;780]; E "ocir" [8858]; E "ocirc" [244]; E
"ocirc" [111;770]; E "ocy" [1086]; E "odash" [8861]; E "odblac" [337]; E "odot" [8857]; E "odot" [111;775]; E "odotb" [7885]; E "oelig" [339]; E
"ogon" [731]; E "ogr" [959]; E "ograve" [242]; E "ograve" [111;768]; E "ohacgr" [974]; E "ohgr" [969]; E "ohm" [8486]; E "olarr" [8634]; E
"oline" [8254]; E "omacr" [333]; E "omacr" [111;772]; E "omega" [969]; E "omicron" [959]; E "ominus" [8854]; E "oplus" [8853]; E "or" [8744]; E
"orarr" [8635]; E "order" [8500]; E "ordf" [170]; E "ordm" [186]; E "oslash" [248]; E "osol" [8856]; E "otilde" [245]; E "otilde" [111;771]; E
"otimes" [8855]; E "ouml" [246]; E "ouml" [111;776]; E "pacute" [112;769]; E "page" [12]; E "par" [8741]; E "para" [182]; E "part" [8706]; E
"pbreve" [112;774]; E "pbring" [112;815]; E "pcaron" [112;780]; E "pcirc" [112;770]; E "pcy" [1087]; E "pdot" [112;775]; E "percnt" [37]; E
"period" [46]; E "permil" [8240]; E "perp" [8869]; E "pgr" [960]; E "pgrave" [112;768]; E "phgr" [966]; E "phi" [966]; E "phis" [966]; E "phiv" [981];
E "phmmat" [8499]; E "phone" [9742]; E "pi" [960]; E "piv" [982]; E "planck" [8463]; E "plus" [43]; E "plusb" [8862]; E "plusdo" [8724]; E
"plusmn" [177]; E "pmacr" [112;772]; E "pound" [163]; E "pr" [8826]; E "pre" [8828]; E "prime" [8242]; E "prnsim" [8936]; E "prod" [8719]; E
"prop" [8733]; E "prsim" [8830]; E "psgr" [968]; E "psi" [968]; E "ptilde" [112;771]; E "puml" [112;776]; E "puncsp" [8200]; E "qacute" [113;769]; E
"qbreve" [113;774]; E "qbring" [113;815]; E "qcaron" [113;780]; E "qcirc" [113;770]; E "qdot" [113;775]; E "qgrave" [113;768]; E "qmacr" [113;772]; E
"qtilde" [113;771]; E "quest" [63]; E "quml" [113;776]; E "quot" [34]; E "rAarr" [8667]; E "rArr" [8658]; E "racute" [341]; E "racute" [114;769]; E
"radic" [8730]; E "rang" [9002]; E "raquo" [187]; E "rarr" [8594]; E "rarr2" [8649]; E "rarrhk" [8618]; E "rarrlp" [8620]; E "rarrtl" [8611]; E
"rarrw" [8605]; E "rbreve" [114;774]; E "rbring" [114;815]; E "rcaron" [345]; E "rcaron" [114;780]; E "rcedil" [343]; E "rceil" [8969]; E
"rcirc" [114;770]; E "rcub" [125]; E "rcy" [1088]; E "rdot" [114;775]; E "rdquo" [8221]; E "rdquor" [8220]; E "real" [8476]; E "rect" [9645]; E
"reg" [174]; E "rfloor" [8971]; E "rgr" [961]; E "rgrave" [114;768]; E "rhard" [8641]; E "rharu" [8640]; E "rho" [961]; E "rhov" [1009]; E
"ring" [730]; E "rlarr2" [8644]; E "rlhar2" [8652]; E "rlm" [8207]; E "rmacr" [114;772]; E "rpar" [41]; E "rsaquo" [8250]; E "rsh" [8625]; E
"rsqb" [93]; E "rsquo" [8217]; E "rsquor" [8216]; E "rthree" [8908]; E "rtilde" [114;771]; E "rtimes" [8906]; E "rtri" [9657]; E "rtrie" [8885]; E
"rtrif" [9656]; E "ruml" [114;776]; E "rx" [8478]; E "sacute" [347]; E "sacute" [115;769]; E "samalg" [8720]; E "sbquo" [8218]; E "sbreve" [115;774];
E "sbring" [115;815]; E "sbsol" [92]; E "sc" [8827]; E "scaron" [353]; E "scaron" [115;780]; E "sccue" [8829]; E "sce" [8829]; E "scedil" [351]; E
"schwa" [601]; E "schwaacute" [601;769]; E "schwadgrave" [601;783]; E "schwagrave" [601;768]; E "schwamacr" [601;772]; E "scirc" [349]; E
"scirc" [115;770]; E "scnsim" [8937]; E "scsim" [8831]; E "scy" [1089]; E "sdot" [8901]; E "sdot" [115;775]; E "sdotb" [8865]; E "sect" [167]; E
"semi" [59]; E "setmn" [8726]; E "sext" [10038]; E "sfgr" [962]; E "sfrown" [8994]; E "sgr" [963]; E "sgrave" [115;768]; E "sharp" [9839]; E
"shchcy" [1097]; E "shcy" [1096]; E "shy" [173]; E "sigma" [963]; E "sigmaf" [962]; E "sigmav" [962]; E "sim" [8764]; E "sime" [8771]; E
"smacr" [115;772]; E "smile" [8995]; E "softcy" [1100]; E "sol" [47]; E "spades" [9824]; E "spar" [8741]; E "sqcap" [8851]; E "sqcup" [8852]; E
"sqsub" [8847]; E "sqsube" [8849]; E "sqsup" [8848]; E "sqsupe" [8850]; E "squ" [9633]; E "square" [9633]; E "squarf" [9632]; E "squf" [9642]; E
"ssetmn" [8726]; E "ssmile" [8995]; E "sstarf" [8902]; E "star" [9734]; E "starf" [9733]; E "stilde" [115;771]; E "sub" [8834]; E "subE" [8838]; E
"sube" [8838]; E "subnE" [8842]; E "subne" [8842]; E "sum" [8721]; E "suml" [115;776]; E "sung" [9834]; E "sup" [8835]; E "sup1" [185]; E
"sup2" [178]; E "sup3" [179]; E "supE" [8839]; E "supe" [8839]; E "supnE" [8843]; E "supne" [8843]; E "szlig" [223]; E "tacute" [116;769]; E
"target" [8982]; E "tau" [964]; E "tbreve" [116;774]; E "tbring" [116;815]; E "tcaron" [357]; E "tcaron" [116;780]; E "tcedil" [355]; E
"tcirc" [116;770]; E "tcy" [1090]; E "tdot" [8411]; E "tdot" [116;775]; E "telrec" [8981]; E "tgr" [964]; E "tgrave" [116;768]; E "there4" [8756]; E
"theta" [952]; E "thetas" [952]; E "thetasym" [977]; E "thetav" [977]; E "thgr" [952]; E "thinsp" [8201]; E "thkap" [8776]; E "thksim" [8764]; E
"thorn" [254]; E "tilde" [732]; E "times" [215]; E "timesb" [8864]; E "tmacr" [116;772]; E "top" [8868]; E "tprime" [8244]; E "trade" [8482]; E
"trie" [8796]; E "tscy" [1094]; E "tshcy" [1115]; E "tstrok" [359]; E "ttilde" [116;771]; E "tuml" [116;776]; E "twixt" [8812]; E "uArr" [8657]; E
"uacgr" [973]; E "uacute" [250]; E "uacute" [117;769]; E "uarr" [8593]; E "uarr2" [8648]; E "ubrcy" [1118]; E "ubreve" [365]; E "ubreve" [117;774]; E
"ubring" [117;815]; E "ucaron" [117;780]; E "ucirc" [251]; E "ucirc" [117;770]; E "ucy" [1091]; E "udblac" [369]; E "udiagr" [944]; E "udigr" [971]; E
"udot" [117;775]; E "ugr" [965]; E "ugrave" [249]; E "ugrave" [117;768]; E "uharl" [8639]; E "uharr" [8638]; E "uhblk" [9600]; E "ulcorn" [8988]; E
"ulcrop" [8975]; E "umacr" [363]; E "umacr" [117;772]; E "uml" [168]; E "uogon" [371]; E "uplus" [8846]; E "upsi" [965]; E "upsih" [978]; E
"upsilon" [965]; E "urcorn" [8989]; E "urcrop" [8974]; E "uring" [367]; E "utilde" [361]; E "utilde" [117;771]; E "utri" [9653]; E "utrif" [9652]; E
"uuml" [252]; E "uuml" [117;776]; E "vArr" [8661]; E "vDash" [8872]; E "vacute" [118;769]; E "varr" [8597]; E "vbreve" [118;774]; E
"vbring" [118;815]; E "vcaron" [118;780]; E "vcirc" [118;770]; E "vcy" [1074]; E "vdash" [8866]; E "vdot" [118;775]; E "veebar" [8891]; E
"vellip" [8942]; E "verbar" [124]; E "vgrave" [118;768]; E "vltri" [8882]; E "vmacr" [118;772]; E "vprime" [8242]; E "vprop" [8733]; E "vrtri" [8883];
E "vsubnE" [8842]; E "vsubne" [8842]; E "vsupnE" [8843]; E "vsupne" [8843]; E "vtab" [11]; E "vtilde" [118;771]; E "vuml" [118;776]; E
"wacute" [119;769]; E "wbreve" [119;774]; E "wbring" [119;815]; E "wcaron" [119;780]; E "wcirc" [373]; E "wcirc" [119;770]; E "wdot" [119;775]; E
"wedgeq" [8793]; E "weierp" [8472]; E "wgrave" [119;768]; E "wmacr" [119;772]; E "wreath" [8768]; E "wtilde" [119;771]; E "wuml" [119;776]; E
"xacute" [120;769]; E "xbreve" [120;774]; E "xbring" [120;815]; E "xcaron" [120;780]; E "xcirc" [9675]; E "xcirc" [120;770]; E "xdot" [120;775]; E
"xdtri" [9661]; E "xgr" [958]; E "xgrave" [120;768]; E "xhArr" [8596]; E "xharr" [8596]; E "xi" [958]; E "xlArr" [8656]; E "xmacr" [120;772]; E
"xrArr" [8658]; E "xtilde" [120;771]; E "xuml" [120;776]; E "xutri" [9651]; E "yacute" [253]; E "yacute" [121;769]; E "yacy" [1103]; E
"ybreve" [121;774]; E "ybring" [121;815]; E "ycaron" [121;780]; E "ycirc" [375]; E "ycirc" [121;770]; E "ycy" [1099]; E "ydot" [121;775]; E
"yen" [165]; E "ygrave" [121;768]; E "yicy" [1111]; E "ymacr" [121;772]; E "ytilde" [121;771]; E "yucy" [1102]; E "yuml" [255]; E "yuml" [121;776]; E
"zacute" [378]; E "zacute" [122;769]; E "zbreve" [122;774]; E "zbring" [122;815]; E "zcaron" [382]; E "zcaron" [122;780]; E "zcirc" [122;770]; E
"zcy" [1079]; E "zdot" [380]; E "zdot" [122;775]; E "zeta" [950]; E "zgr" [950]; E "zgrave" [122;768]; E "zhcy" [1078]; E "zmacr" [122;772]; E
"ztilde" [122;771]; E "zuml" [122;776]; E "zwj" [8205]; E "zwnj" [8204]].
(** sgml_unicode.hpp:1563-3099 *)
Definition unicode_sgml : list Z := [
1462; 1165; 781; 1219; 1111; 722; 1175; 497; 507; 998; 1260; 510; 1190; 667; 878; 1176; 1320; 665; 1301; 1009; 771; 851; 1217; 668; 14; 3; 9; 21; 17;
5; 11; 23; 7; 6; 34; 24; 29; 36; 35; 26; 31; 37; 28; 27; 51; 40; 48; 54; 53; 42; 50; 55; 45; 43; 71; 60; 66; 76; 72; 62; 68; 77; 65; 63; 97; 84; 90;
103; 99; 85; 93; 105; 88; 86; 113; 106; 110; 115; 114; 107; 112; 116; 109; 108; 132; 118; 126; 135; 133; 121; 129; 136; 123; 122; 145; 138; 143; 148;
146; 139; 144; 149; 141; 140; 167; 155; 160; 173; 169; 156; 164; 176; 158; 157; 185; 177; 182; 188; 186; 178; 184; 190; 180; 179; 204; 194; 200; 206;
205; 196; 202; 207; 198; 197; 222; 210; 218; 228; 224; 213; 220; 229; 216; 214; 238; 230; 234; 240; 239; 231; 236; 242; 233; 232; 255; 245; 251; 258;
256; 246; 253; 260; 249; 247; 279; 266; 272; 286; 281; 267; 275; 288; 270; 268; 299; 291; 295; 305; 302; 292; 297; 306; 294; 293; 313; 307; 311; 315;
314; 308; 312; 316; 310; 309; 329; 318; 325; 332; 331; 320; 327; 333; 323; 321; 349; 338; 345; 352; 351; 339; 347; 354; 342; 340; 371; 360; 367; 375;
373; 362; 369; 376; 365; 363; 393; 379; 386; 401; 395; 382; 390; 403; 384; 383; 413; 404; 408; 415; 414; 405; 411; 416; 407; 406; 425; 418; 423; 427;
426; 419; 424; 428; 421; 420; 436; 429; 433; 439; 438; 430; 434; 440; 432; 431; 453; 445; 450; 455; 454; 446; 452; 457; 448; 447; 471; 460; 465; 473;
472; 461; 468; 474; 464; 462; 1005; 629; 1280; 1263; 994; 848; 490; 477; 483; 513; 495; 479; 486; 515; 481; 480; 575; 559; 564; 630; 581; 561; 567;
632; 563; 562; 651; 636; 646; 678; 664; 640; 648; 682; 643; 641; 708; 690; 702; 729; 721; 698; 704; 732; 701; 699; 755; 737; 744; 777; 760; 738; 748;
779; 741; 739; 794; 783; 787; 819; 798; 784; 789; 820; 786; 785; 840; 823; 832; 852; 844; 827; 835; 853; 829; 828; 871; 856; 867; 875; 872; 863; 868;
876; 865; 864; 896; 881; 886; 913; 899; 882; 890; 916; 884; 883; 925; 917; 922; 928; 926; 918; 924; 930; 920; 919; 942; 931; 938; 948; 947; 934; 940;
949; 936; 935; 983; 954; 970; 1011; 988; 964; 974; 1016; 967; 965; 1032; 1019; 1027; 1042; 1039; 1024; 1030; 1045; 1026; 1025; 1072; 1050; 1060; 1109;
1086; 1054; 1064; 1113; 1058; 1055; 1140; 1121; 1129; 1160; 1147; 1123; 1134; 1163; 1126; 1124; 1180; 1164; 1172; 1205; 1194; 1169; 1174; 1206; 1171;
1170; 1214; 1208; 1212; 1216; 1215; 1209; 1213; 1218; 1211; 1210; 1250; 1223; 1239; 1267; 1259; 1233; 1242; 1272; 1236; 1234; 1307; 1275; 1293; 1338;
1317; 1278; 1298; 1345; 1283; 1279; 1370; 1356; 1364; 1392; 1384; 1359; 1367; 1393; 1362; 1360; 1415; 1398; 1407; 1433; 1422; 1403; 1412; 1437; 1405;
1404; 1452; 1440; 1445; 1463; 1454; 1442; 1448; 1464; 1444; 1443; 1474; 1465; 1470; 1477; 1475; 1466; 1471; 1478; 1468; 1467; 1488; 1479; 1484; 1495;
1493; 1480; 1485; 1496; 1482; 1481; 1509; 1499; 1505; 1512; 1511; 1501; 1507; 1515; 1503; 1502; 1528; 1517; 1522; 1531; 1530; 1518; 1525; 1532; 1521;
1519; 971; 1451; 1240; 1056; 892; 650; 1195; 686; 1508; 626; 1300; 73; 714; 1423; 674; 1155; 958; 1088; 1311; 1247; 1018; 705; 1193; 1349; 1350; 484;
1033; 1167; 1035; 649; 1348; 1156; 1226; 804; 802; 858; 810; 910; 13; 2; 8; 20; 22; 19; 0; 46; 96; 83; 89; 104; 166; 154; 159; 175; 81; 257; 278; 265;
271; 285; 287; 1382; 284; 392; 378; 385; 402; 444; 356; 1355; 489; 476; 482; 512; 514; 509; 487; 644; 754; 736; 743; 778; 895; 880; 885; 915; 776;
1108; 1139; 1120; 1128; 1159; 1162; 715; 1157; 1414; 1397; 1406; 1436; 1498; 1380; 1514; 16; 494; 4; 478; 18; 504; 39; 635; 47; 645; 49; 647; 44; 642;
64; 700; 75; 728; 98; 759; 92; 747; 100; 767; 87; 740; 125; 831; 120; 826; 128; 834; 124; 830; 142; 866; 147; 874; 172; 912; 168; 898; 170; 908; 163;
903; 904; 151; 897; 181; 921; 199; 937; 943; 209; 953; 217; 968; 215; 966; 225; 989; 226; 1008; 244; 1049; 250; 1059; 248; 1057; 1052; 80; 765; 280;
1146; 274; 1132; 261; 1136; 317; 1222; 324; 1237; 322; 1235; 337; 1274; 344; 1292; 343; 1286; 341; 1282; 366; 1363; 364; 1361; 374; 1391; 400; 1432;
394; 1421; 381; 1402; 399; 1431; 388; 1409; 396; 1424; 422; 1469; 449; 1504; 456; 459; 1516; 467; 1524; 463; 1520; 799; 269; 1125; 822; 1287; 1290;
1288; 1291; 1289; 508; 656; 639; 625; 723; 1255; 1137; 1381; 697; 1; 82; 78; 153; 264; 377; 262; 888; 12; 15; 32; 33; 119; 131; 517; 69; 70; 516; 95;
101; 469; 470; 79; 102; 357; 372; 524; 165; 171; 195; 203; 211; 221; 518; 237; 241; 254; 259; 435; 437; 526; 277; 283; 298; 301; 521; 328; 330; 348;
350; 523; 361; 370; 391; 397; 398; 525; 289; 300; 520; 52; 192; 290; 304; 522; 263; 282; 519; 162; 389; 475; 735; 750; 879; 1410; 488; 493; 527; 528;
572; 574; 535; 824; 839; 530; 706; 707; 531; 532; 533; 753; 768; 769; 558; 1526; 1527; 534; 751; 775; 554; 1372; 1373; 1376; 537; 894; 909; 538; 932;
941; 540; 956; 982; 541; 1031; 1043; 542; 1071; 1110; 557; 1487; 1491; 1138; 1149; 546; 1179; 1187; 549; 1249; 1253; 552; 1304; 1313; 1314; 551; 1306;
1312; 553; 1358; 1369; 556; 1413; 1426; 1428; 544; 1181; 1182; 1183; 529; 654; 945; 548; 1203; 1204; 1142; 1148; 889; 1411; 1119; 1396; 543; 1141;
555; 1374; 1375; 1427; 545; 1184; 547; 1188; 536; 825; 539; 933; 550; 1254; 152; 57; 117; 189; 58; 174; 442; 187; 208; 243; 358; 193; 380; 59; 10; 30;
409; 127; 67; 150; 458; 466; 161; 183; 201; 219; 235; 252; 273; 296; 326; 346; 368; 387; 111; 191; 359; 38; 335; 334; 137; 451; 336; 91; 443; 441;
485; 566; 1446; 833; 703; 891; 1529; 1523; 887; 923; 939; 972; 1028; 1062; 1130; 1173; 1241; 1296; 1365; 1408; 788; 944; 1389; 652; 1310; 1309; 860;
1506; 1319; 746; 1513; 1500; 907; 717; 842; 929; 727; 914; 1510; 927; 987; 1077; 1390; 946; 1401; 733; 94; 749; 276; 1135; 766; 762; 763; 764; 1114;
1207; 1377; 857; 1534; 1533; 1001; 1258; 695; 1063; 1029; 873; 412; 1006; 1265; 1264; 1007; 1277; 975; 1244; 1243; 568; 976; 691; 61; 631; 1080; 870;
1038; 1177; 1198; 1455; 303; 1386; 624; 1002; 1261; 1145; 638; 877; 817; 780; 1366; 74; 901; 859; 1189; 900; 955; 757; 1112; 675; 1473; 1245; 1273;
1387; 1143; 503; 571; 1185; 1154; 491; 492; 573; 841; 692; 803; 808; 805; 809; 811; 813; 806; 814; 807; 812; 815; 816; 959; 1399; 1227; 693; 861;
1489; 1490; 1441; 1117; 1066; 724; 718; 1079; 1094; 1232; 212; 319; 963; 1231; 1022; 961; 1229; 962; 1230; 862; 1075; 1003; 1262; 676; 681; 685; 1144;
1153; 985; 984; 1417; 1416; 1252; 1251; 710; 709; 1256; 999; 960; 1400; 1228; 694; 1000; 1257; 1078; 1074; 1093; 951; 1492; 1395; 1221; 1494; 689;
855; 893; 1438; 950; 1220; 800; 669; 1168; 782; 1068; 761; 1048; 911; 1089; 770; 1076; 570; 1200; 496; 673; 1276; 1344; 1036; 1040; 1192; 1302; 1333;
993; 670; 1224; 1201; 1456; 902; 500; 499; 501; 502; 1034; 1087; 1166; 1322; 1090; 1101; 498; 1152; 637; 683; 905; 672; 1371; 569; 1315; 1379; 627;
1476; 1099; 1316; 1100; 671; 1061; 505; 511; 1378; 1051; 506; 565; 633; 634; 774; 734; 752; 773; 666; 745; 742; 662; 1472; 1388; 1065; 772; 1067; 977;
979; 836; 838; 952; 821; 990; 991; 1017; 845; 846; 854; 227; 134; 1394; 1083; 1073; 1081; 1082; 1069; 1070; 1004; 850; 981; 843; 1196; 1281; 684;
1197; 1284; 1285; 1202; 1295; 1091; 1097; 1339; 1347; 1102; 1105; 1340; 1341; 1351; 1352; 1103; 1104; 1106; 1107; 1342; 1343; 1458; 1459; 1353; 1354;
1460; 1461; 1425; 1325; 1327; 1326; 1328; 1323; 1324; 1151; 1150; 1161; 1158; 1133; 1127; 1122; 1131; 1191; 1037; 1383; 1299; 1447; 696; 1385; 582;
1178; 1041; 1439; 410; 417; 1116; 1115; 1047; 1046; 1453; 1457; 1014; 1270; 1044; 906; 1449; 560; 711; 1297; 1335; 716; 583; 1012; 1268; 1010; 1266;
628; 687; 688; 353; 355; 41; 56; 801; 973; 849; 223; 130; 978; 837; 758; 756; 679; 680; 1092; 1098; 992; 847; 1199; 1294; 1084; 1095; 1085; 1096;
1450; 25; 969; 1238; 980; 1248; 726; 720; 1430; 1420; 1368; 1357; 1419; 1429; 719; 725; 818; 1305; 1318; 1334; 957; 1225; 576; 1118; 608; 617; 607;
606; 616; 615; 623; 622; 611; 612; 621; 588; 597; 605; 587; 585; 604; 586; 584; 614; 596; 594; 613; 595; 593; 620; 603; 600; 619; 602; 599; 591; 609;
589; 592; 610; 590; 618; 601; 598; 1418; 986; 580; 578; 577; 579; 1331; 1329; 1330; 1332; 1246; 1023; 1497; 1435; 1434; 1271; 1269; 1486; 731; 730;
1015; 1013; 712; 995; 655; 1483; 657; 659; 660; 658; 661; 1337; 1336; 1186; 790; 1020; 1321; 663; 869; 713; 1346; 796; 1053; 1308; 653; 677; 1021;
997; 996; 1303; 792; 795; 797; 791; 793].
