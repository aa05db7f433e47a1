(** GENERATED by tools/gen_glob_tests.py from the Rust unit tests: conformance
    tests of the model (not proofs of properties). *)
From Verif Require Import Glob.
Local Open Scope N_scope.
Definition glob_cases : list (bool * list N * list N * bool) := [
(false,[97;98;99],[97;98;99],true);
(false,[42],[97;98;99],true);
(false,[42],[],true);
(false,[42;42],[],true);
(false,[42;99],[97;98;99],true);
(false,[42;98],[97;98;99],false);
(false,[97;42],[97;98;99],true);
(false,[98;42],[97;98;99],false);
(false,[97;42],[97],true);
(false,[42;97],[97],true);
(false,[97;42;98;42;99;42;100;42;101;42],[97;120;98;120;99;120;100;120;101],true);
(false,[97;42;98;42;99;42;100;42;101;42],[97;120;98;120;99;120;100;120;101;120;120;120],true);
(false,[97;42;98;63;99;42;120],[97;98;120;98;98;120;100;98;120;101;98;120;99;122;122;120],true);
(false,[97;42;98;63;99;42;120],[97;98;120;98;98;120;100;98;120;101;98;120;99;122;122;121],false);
(false,[97;47;42;47;116;101;115;116],[97;47;102;111;111;47;116;101;115;116],true);
(false,[97;47;42;47;116;101;115;116],[97;47;102;111;111;47;98;97;114;47;116;101;115;116],false);
(false,[97;47;42;42;47;116;101;115;116],[97;47;102;111;111;47;116;101;115;116],true);
(false,[97;47;42;42;47;116;101;115;116],[97;47;102;111;111;47;98;97;114;47;116;101;115;116],true);
(false,[97;47;42;42;47;98;47;99],[97;47;102;111;111;47;98;97;114;47;98;47;99],true);
(false,[97;92;42;98],[97;42;98],true);
(false,[97;92;42;98],[97;120;98],false);
(false,[91;97;98;99;93],[97],true);
(false,[91;97;98;99;93],[98],true);
(false,[91;97;98;99;93],[99],true);
(false,[91;97;98;99;93],[100],false);
(false,[120;91;97;98;99;93;120],[120;97;120],true);
(false,[120;91;97;98;99;93;120],[120;98;120],true);
(false,[120;91;97;98;99;93;120],[120;99;120],true);
(false,[120;91;97;98;99;93;120],[120;100;120],false);
(false,[120;91;97;98;99;93;120],[120;97;121],false);
(false,[91;63;93],[63],true);
(false,[91;63;93],[97],false);
(false,[91;42;93],[42],true);
(false,[91;42;93],[97],false);
(false,[91;97;45;99;120;93],[97],true);
(false,[91;97;45;99;120;93],[98],true);
(false,[91;97;45;99;120;93],[99],true);
(false,[91;97;45;99;120;93],[100],false);
(false,[91;97;45;99;120;93],[120],true);
(false,[91;94;97;98;99;93],[97],false);
(false,[91;94;97;98;99;93],[98],false);
(false,[91;94;97;98;99;93],[99],false);
(false,[91;94;97;98;99;93],[100],true);
(false,[91;33;97;98;99;93],[97],false);
(false,[91;33;97;98;99;93],[98],false);
(false,[91;33;97;98;99;93],[99],false);
(false,[91;33;97;98;99;93],[100],true);
(false,[91;92;33;93],[33],true);
(false,[97;42;98;42;91;99;121;93;42;100;42;101;42],[97;120;98;120;99;120;100;120;101;120;120;120],true);
(false,[97;42;98;42;91;99;121;93;42;100;42;101;42],[97;120;98;120;121;120;100;120;101;120;120;120],true);
(false,[97;42;98;42;91;99;121;93;42;100;42;101;42],[97;120;98;120;120;120;121;120;100;120;101;120;120;120],true);
(false,[116;101;115;116;46;123;106;112;103;44;112;110;103;125],[116;101;115;116;46;106;112;103],true);
(false,[116;101;115;116;46;123;106;112;103;44;112;110;103;125],[116;101;115;116;46;112;110;103],true);
(false,[116;101;115;116;46;123;106;42;103;44;112;42;103;125],[116;101;115;116;46;106;112;103],true);
(false,[116;101;115;116;46;123;106;42;103;44;112;42;103;125],[116;101;115;116;46;106;112;120;120;120;103],true);
(false,[116;101;115;116;46;123;106;42;103;44;112;42;103;125],[116;101;115;116;46;106;120;103],true);
(false,[116;101;115;116;46;123;106;42;103;44;112;42;103;125],[116;101;115;116;46;106;110;116],false);
(false,[116;101;115;116;46;123;106;42;103;44;106;42;99;125],[116;101;115;116;46;106;110;99],true);
(false,[116;101;115;116;46;123;106;112;103;44;112;42;103;125],[116;101;115;116;46;112;110;103],true);
(false,[116;101;115;116;46;123;106;112;103;44;112;42;103;125],[116;101;115;116;46;112;120;103],true);
(false,[116;101;115;116;46;123;106;112;103;44;112;42;103;125],[116;101;115;116;46;112;110;116],false);
(false,[116;101;115;116;46;123;106;112;101;103;44;112;110;103;125],[116;101;115;116;46;106;112;101;103],true);
(false,[116;101;115;116;46;123;106;112;101;103;44;112;110;103;125],[116;101;115;116;46;106;112;103],false);
(false,[116;101;115;116;46;123;106;112;101;103;44;112;110;103;125],[116;101;115;116;46;112;110;103],true);
(false,[116;101;115;116;46;123;106;112;92;44;103;44;112;110;103;125],[116;101;115;116;46;106;112;44;103],true);
(false,[116;101;115;116;46;123;106;112;92;44;103;44;112;110;103;125],[116;101;115;116;46;106;120;103],false);
(false,[116;101;115;116;47;123;102;111;111;44;98;97;114;125;47;98;97;122],[116;101;115;116;47;102;111;111;47;98;97;122],true);
(false,[116;101;115;116;47;123;102;111;111;44;98;97;114;125;47;98;97;122],[116;101;115;116;47;98;97;114;47;98;97;122],true);
(false,[116;101;115;116;47;123;102;111;111;44;98;97;114;125;47;98;97;122],[116;101;115;116;47;98;97;122;47;98;97;122],false);
(false,[116;101;115;116;47;123;102;111;111;42;44;98;97;114;42;125;47;98;97;122],[116;101;115;116;47;102;111;111;111;111;111;111;47;98;97;122],true);
(false,[116;101;115;116;47;123;102;111;111;42;44;98;97;114;42;125;47;98;97;122],[116;101;115;116;47;98;97;114;114;114;114;114;47;98;97;122],true);
(false,[116;101;115;116;47;123;42;102;111;111;44;42;98;97;114;125;47;98;97;122],[116;101;115;116;47;120;120;120;120;102;111;111;47;98;97;122],true);
(false,[116;101;115;116;47;123;42;102;111;111;44;42;98;97;114;125;47;98;97;122],[116;101;115;116;47;120;120;120;120;98;97;114;47;98;97;122],true);
(false,[116;101;115;116;47;123;102;111;111;47;42;42;44;98;97;114;125;47;98;97;122],[116;101;115;116;47;98;97;114;47;98;97;122],true);
(false,[116;101;115;116;47;123;102;111;111;47;42;42;44;98;97;114;125;47;98;97;122],[116;101;115;116;47;98;97;114;47;116;101;115;116;47;98;97;122],false);
(false,[42;46;116;120;116],[115;111;109;101;47;98;105;103;47;112;97;116;104;47;116;111;47;116;104;101;47;110;101;101;100;108;101;46;116;120;116],false);
(false,[115;111;109;101;47;42;42;47;110;101;101;100;108;101;46;123;106;115;44;116;115;120;44;109;100;120;44;116;115;44;106;115;120;44;116;120;116;125],[115;111;109;101;47;97;47;98;105;103;103;101;114;47;112;97;116;104;47;116;111;47;116;104;101;47;99;114;97;122;121;47;110;101;101;100;108;101;46;116;120;116],true);
(false,[115;111;109;101;47;42;42;47;123;97;44;98;44;99;125;47;42;42;47;110;101;101;100;108;101;46;116;120;116],[115;111;109;101;47;102;111;111;47;97;47;98;105;103;103;101;114;47;112;97;116;104;47;116;111;47;116;104;101;47;99;114;97;122;121;47;110;101;101;100;108;101;46;116;120;116],true);
(false,[115;111;109;101;47;42;42;47;123;97;44;98;44;99;125;47;42;42;47;110;101;101;100;108;101;46;116;120;116],[115;111;109;101;47;102;111;111;47;100;47;98;105;103;103;101;114;47;112;97;116;104;47;116;111;47;116;104;101;47;99;114;97;122;121;47;110;101;101;100;108;101;46;116;120;116],false);
(false,[97;47;123;97;123;97;44;98;125;44;98;125],[97;47;97;97],true);
(false,[97;47;123;97;123;97;44;98;125;44;98;125],[97;47;97;98],true);
(false,[97;47;123;97;123;97;44;98;125;44;98;125],[97;47;97;99],false);
(false,[97;47;123;97;123;97;44;98;125;44;98;125],[97;47;98],true);
(false,[97;47;123;97;123;97;44;98;125;44;98;125],[97;47;99],false);
(false,[97;47;123;98;44;99;91;125;93;42;125],[97;47;98],true);
(false,[97;47;123;98;44;99;91;125;93;42;125],[97;47;99;125;120;120],true);
(false,[97;42],[42],false);
(false,[97;42],[42;42],false);
(false,[97;42],[92;42],false);
(false,[97;42],[97;47;42],false);
(false,[97;42],[98],false);
(false,[97;42],[98;99],false);
(false,[97;42],[98;99;100],false);
(false,[97;42],[98;100;105;114;47],false);
(false,[97;42],[66;101;119;97;114;101],false);
(false,[97;42],[97],true);
(false,[97;42],[97;98],true);
(false,[97;42],[97;98;99],true);
(false,[92;97;42],[42],false);
(false,[92;97;42],[42;42],false);
(false,[92;97;42],[92;42],false);
(false,[92;97;42],[97],true);
(false,[92;97;42],[97;47;42],false);
(false,[92;97;42],[97;98;99],true);
(false,[92;97;42],[97;98;100],true);
(false,[92;97;42],[97;98;101],true);
(false,[92;97;42],[98],false);
(false,[92;97;42],[98;98],false);
(false,[92;97;42],[98;99;100],false);
(false,[92;97;42],[98;100;105;114;47],false);
(false,[92;97;42],[66;101;119;97;114;101],false);
(false,[92;97;42],[99],false);
(false,[92;97;42],[99;97],false);
(false,[92;97;42],[99;98],false);
(false,[92;97;42],[100],false);
(false,[92;97;42],[100;100],false);
(false,[92;97;42],[100;101],false);
(false,[98;42;47],[42],false);
(false,[98;42;47],[42;42],false);
(false,[98;42;47],[92;42],false);
(false,[98;42;47],[97],false);
(false,[98;42;47],[97;47;42],false);
(false,[98;42;47],[97;98;99],false);
(false,[98;42;47],[97;98;100],false);
(false,[98;42;47],[97;98;101],false);
(false,[98;42;47],[98],false);
(false,[98;42;47],[98;98],false);
(false,[98;42;47],[98;99;100],false);
(false,[98;42;47],[98;100;105;114;47],true);
(false,[98;42;47],[66;101;119;97;114;101],false);
(false,[98;42;47],[99],false);
(false,[98;42;47],[99;97],false);
(false,[98;42;47],[99;98],false);
(false,[98;42;47],[100],false);
(false,[98;42;47],[100;100],false);
(false,[98;42;47],[100;101],false);
(false,[92;94],[42],false);
(false,[92;94],[42;42],false);
(false,[92;94],[92;42],false);
(false,[92;94],[97],false);
(false,[92;94],[97;47;42],false);
(false,[92;94],[97;98;99],false);
(false,[92;94],[97;98;100],false);
(false,[92;94],[97;98;101],false);
(false,[92;94],[98],false);
(false,[92;94],[98;98],false);
(false,[92;94],[98;99;100],false);
(false,[92;94],[98;100;105;114;47],false);
(false,[92;94],[66;101;119;97;114;101],false);
(false,[92;94],[99],false);
(false,[92;94],[99;97],false);
(false,[92;94],[99;98],false);
(false,[92;94],[100],false);
(false,[92;94],[100;100],false);
(false,[92;94],[100;101],false);
(false,[92;42],[42],true);
(false,[92;42],[42;42],false);
(false,[92;42],[97],false);
(false,[92;42],[97;47;42],false);
(false,[92;42],[97;98;99],false);
(false,[92;42],[97;98;100],false);
(false,[92;42],[97;98;101],false);
(false,[92;42],[98],false);
(false,[92;42],[98;98],false);
(false,[92;42],[98;99;100],false);
(false,[92;42],[98;100;105;114;47],false);
(false,[92;42],[66;101;119;97;114;101],false);
(false,[92;42],[99],false);
(false,[92;42],[99;97],false);
(false,[92;42],[99;98],false);
(false,[92;42],[100],false);
(false,[92;42],[100;100],false);
(false,[92;42],[100;101],false);
(false,[97;92;42],[42],false);
(false,[97;92;42],[42;42],false);
(false,[97;92;42],[92;42],false);
(false,[97;92;42],[97],false);
(false,[97;92;42],[97;47;42],false);
(false,[97;92;42],[97;98;99],false);
(false,[97;92;42],[97;98;100],false);
(false,[97;92;42],[97;98;101],false);
(false,[97;92;42],[98],false);
(false,[97;92;42],[98;98],false);
(false,[97;92;42],[98;99;100],false);
(false,[97;92;42],[98;100;105;114;47],false);
(false,[97;92;42],[66;101;119;97;114;101],false);
(false,[97;92;42],[99],false);
(false,[97;92;42],[99;97],false);
(false,[97;92;42],[99;98],false);
(false,[97;92;42],[100],false);
(false,[97;92;42],[100;100],false);
(false,[97;92;42],[100;101],false);
(false,[42;113;42],[97;113;97],true);
(false,[42;113;42],[97;97;113;97;97],true);
(false,[42;113;42],[42],false);
(false,[42;113;42],[42;42],false);
(false,[42;113;42],[92;42],false);
(false,[42;113;42],[97],false);
(false,[42;113;42],[97;47;42],false);
(false,[42;113;42],[97;98;99],false);
(false,[42;113;42],[97;98;100],false);
(false,[42;113;42],[97;98;101],false);
(false,[42;113;42],[98],false);
(false,[42;113;42],[98;98],false);
(false,[42;113;42],[98;99;100],false);
(false,[42;113;42],[98;100;105;114;47],false);
(false,[42;113;42],[66;101;119;97;114;101],false);
(false,[42;113;42],[99],false);
(false,[42;113;42],[99;97],false);
(false,[42;113;42],[99;98],false);
(false,[42;113;42],[100],false);
(false,[42;113;42],[100;100],false);
(false,[42;113;42],[100;101],false);
(false,[92;42;42],[42],true);
(false,[92;42;42],[42;42],true);
(false,[92;42;42],[92;42],false);
(false,[92;42;42],[97],false);
(false,[92;42;42],[97;47;42],false);
(false,[92;42;42],[97;98;99],false);
(false,[92;42;42],[97;98;100],false);
(false,[92;42;42],[97;98;101],false);
(false,[92;42;42],[98],false);
(false,[92;42;42],[98;98],false);
(false,[92;42;42],[98;99;100],false);
(false,[92;42;42],[98;100;105;114;47],false);
(false,[92;42;42],[66;101;119;97;114;101],false);
(false,[92;42;42],[99],false);
(false,[92;42;42],[99;97],false);
(false,[92;42;42],[99;98],false);
(false,[92;42;42],[100],false);
(false,[92;42;42],[100;100],false);
(false,[92;42;42],[100;101],false);
(false,[97;42;91;94;99;93],[42],false);
(false,[97;42;91;94;99;93],[42;42],false);
(false,[97;42;91;94;99;93],[92;42],false);
(false,[97;42;91;94;99;93],[97],false);
(false,[97;42;91;94;99;93],[97;47;42],false);
(false,[97;42;91;94;99;93],[97;98;99],false);
(false,[97;42;91;94;99;93],[97;98;100],true);
(false,[97;42;91;94;99;93],[97;98;101],true);
(false,[97;42;91;94;99;93],[98],false);
(false,[97;42;91;94;99;93],[98;98],false);
(false,[97;42;91;94;99;93],[98;99;100],false);
(false,[97;42;91;94;99;93],[98;100;105;114;47],false);
(false,[97;42;91;94;99;93],[66;101;119;97;114;101],false);
(false,[97;42;91;94;99;93],[99],false);
(false,[97;42;91;94;99;93],[99;97],false);
(false,[97;42;91;94;99;93],[99;98],false);
(false,[97;42;91;94;99;93],[100],false);
(false,[97;42;91;94;99;93],[100;100],false);
(false,[97;42;91;94;99;93],[100;101],false);
(false,[97;42;91;94;99;93],[98;97;122],false);
(false,[97;42;91;94;99;93],[98;122;122],false);
(false,[97;42;91;94;99;93],[66;90;90],false);
(false,[97;42;91;94;99;93],[98;101;119;97;114;101],false);
(false,[97;42;91;94;99;93],[66;101;119;65;114;101],false);
(false,[97;91;88;45;93;98],[97;45;98],true);
(false,[97;91;88;45;93;98],[97;88;98],true);
(false,[91;97;45;121;93;42;91;94;99;93],[42],false);
(false,[91;97;45;121;93;42;91;94;99;93],[97;42],true);
(false,[91;97;45;121;93;42;91;94;99;93],[42;42],false);
(false,[91;97;45;121;93;42;91;94;99;93],[92;42],false);
(false,[91;97;45;121;93;42;91;94;99;93],[97],false);
(false,[91;97;45;121;93;42;91;94;99;93],[97;49;50;51;98],true);
(false,[91;97;45;121;93;42;91;94;99;93],[97;49;50;51;99],false);
(false,[91;97;45;121;93;42;91;94;99;93],[97;98],true);
(false,[91;97;45;121;93;42;91;94;99;93],[97;47;42],false);
(false,[91;97;45;121;93;42;91;94;99;93],[97;98;99],false);
(false,[91;97;45;121;93;42;91;94;99;93],[97;98;100],true);
(false,[91;97;45;121;93;42;91;94;99;93],[97;98;101],true);
(false,[91;97;45;121;93;42;91;94;99;93],[98],false);
(false,[91;97;45;121;93;42;91;94;99;93],[98;100],true);
(false,[91;97;45;121;93;42;91;94;99;93],[98;98],true);
(false,[91;97;45;121;93;42;91;94;99;93],[98;99;100],true);
(false,[91;97;45;121;93;42;91;94;99;93],[98;100;105;114;47],true);
(false,[91;97;45;121;93;42;91;94;99;93],[66;101;119;97;114;101],false);
(false,[91;97;45;121;93;42;91;94;99;93],[99],false);
(false,[91;97;45;121;93;42;91;94;99;93],[99;97],true);
(false,[91;97;45;121;93;42;91;94;99;93],[99;98],true);
(false,[91;97;45;121;93;42;91;94;99;93],[100],false);
(false,[91;97;45;121;93;42;91;94;99;93],[100;100],true);
(false,[91;97;45;121;93;42;91;94;99;93],[100;100],true);
(false,[91;97;45;121;93;42;91;94;99;93],[100;100],true);
(false,[91;97;45;121;93;42;91;94;99;93],[100;101],true);
(false,[91;97;45;121;93;42;91;94;99;93],[98;97;122],true);
(false,[91;97;45;121;93;42;91;94;99;93],[98;122;122],true);
(false,[91;97;45;121;93;42;91;94;99;93],[98;122;122],true);
(false,[91;97;45;121;93;42;91;94;99;93],[66;90;90],false);
(false,[91;97;45;121;93;42;91;94;99;93],[98;101;119;97;114;101],true);
(false,[91;97;45;121;93;42;91;94;99;93],[66;101;119;65;114;101],false);
(false,[97;92;42;98;47;42],[97;42;98;47;111;111;111],true);
(false,[97;92;42;63;47;42],[97;42;98;47;111;111;111],true);
(false,[97;91;98;93;99],[42],false);
(false,[97;91;98;93;99],[42;42],false);
(false,[97;91;98;93;99],[92;42],false);
(false,[97;91;98;93;99],[97],false);
(false,[97;91;98;93;99],[97;47;42],false);
(false,[97;91;98;93;99],[97;98;99],true);
(false,[97;91;98;93;99],[97;98;100],false);
(false,[97;91;98;93;99],[97;98;101],false);
(false,[97;91;98;93;99],[98],false);
(false,[97;91;98;93;99],[98;98],false);
(false,[97;91;98;93;99],[98;99;100],false);
(false,[97;91;98;93;99],[98;100;105;114;47],false);
(false,[97;91;98;93;99],[66;101;119;97;114;101],false);
(false,[97;91;98;93;99],[99],false);
(false,[97;91;98;93;99],[99;97],false);
(false,[97;91;98;93;99],[99;98],false);
(false,[97;91;98;93;99],[100],false);
(false,[97;91;98;93;99],[100;100],false);
(false,[97;91;98;93;99],[100;101],false);
(false,[97;91;98;93;99],[98;97;122],false);
(false,[97;91;98;93;99],[98;122;122],false);
(false,[97;91;98;93;99],[66;90;90],false);
(false,[97;91;98;93;99],[98;101;119;97;114;101],false);
(false,[97;91;98;93;99],[66;101;119;65;114;101],false);
(false,[97;91;34;98;34;93;99],[42],false);
(false,[97;91;34;98;34;93;99],[42;42],false);
(false,[97;91;34;98;34;93;99],[92;42],false);
(false,[97;91;34;98;34;93;99],[97],false);
(false,[97;91;34;98;34;93;99],[97;47;42],false);
(false,[97;91;34;98;34;93;99],[97;98;99],true);
(false,[97;91;34;98;34;93;99],[97;98;100],false);
(false,[97;91;34;98;34;93;99],[97;98;101],false);
(false,[97;91;34;98;34;93;99],[98],false);
(false,[97;91;34;98;34;93;99],[98;98],false);
(false,[97;91;34;98;34;93;99],[98;99;100],false);
(false,[97;91;34;98;34;93;99],[98;100;105;114;47],false);
(false,[97;91;34;98;34;93;99],[66;101;119;97;114;101],false);
(false,[97;91;34;98;34;93;99],[99],false);
(false,[97;91;34;98;34;93;99],[99;97],false);
(false,[97;91;34;98;34;93;99],[99;98],false);
(false,[97;91;34;98;34;93;99],[100],false);
(false,[97;91;34;98;34;93;99],[100;100],false);
(false,[97;91;34;98;34;93;99],[100;101],false);
(false,[97;91;34;98;34;93;99],[98;97;122],false);
(false,[97;91;34;98;34;93;99],[98;122;122],false);
(false,[97;91;34;98;34;93;99],[66;90;90],false);
(false,[97;91;34;98;34;93;99],[98;101;119;97;114;101],false);
(false,[97;91;34;98;34;93;99],[66;101;119;65;114;101],false);
(false,[97;91;92;92;98;93;99],[42],false);
(false,[97;91;92;92;98;93;99],[42;42],false);
(false,[97;91;92;92;98;93;99],[92;42],false);
(false,[97;91;92;92;98;93;99],[97],false);
(false,[97;91;92;92;98;93;99],[97;47;42],false);
(false,[97;91;92;92;98;93;99],[97;98;99],true);
(false,[97;91;92;92;98;93;99],[97;98;100],false);
(false,[97;91;92;92;98;93;99],[97;98;101],false);
(false,[97;91;92;92;98;93;99],[98],false);
(false,[97;91;92;92;98;93;99],[98;98],false);
(false,[97;91;92;92;98;93;99],[98;99;100],false);
(false,[97;91;92;92;98;93;99],[98;100;105;114;47],false);
(false,[97;91;92;92;98;93;99],[66;101;119;97;114;101],false);
(false,[97;91;92;92;98;93;99],[99],false);
(false,[97;91;92;92;98;93;99],[99;97],false);
(false,[97;91;92;92;98;93;99],[99;98],false);
(false,[97;91;92;92;98;93;99],[100],false);
(false,[97;91;92;92;98;93;99],[100;100],false);
(false,[97;91;92;92;98;93;99],[100;101],false);
(false,[97;91;92;92;98;93;99],[98;97;122],false);
(false,[97;91;92;92;98;93;99],[98;122;122],false);
(false,[97;91;92;92;98;93;99],[66;90;90],false);
(false,[97;91;92;92;98;93;99],[98;101;119;97;114;101],false);
(false,[97;91;92;92;98;93;99],[66;101;119;65;114;101],false);
(false,[97;91;92;98;93;99],[42],false);
(false,[97;91;92;98;93;99],[42;42],false);
(false,[97;91;92;98;93;99],[92;42],false);
(false,[97;91;92;98;93;99],[97],false);
(false,[97;91;92;98;93;99],[97;47;42],false);
(false,[97;91;92;98;93;99],[97;98;99],false);
(false,[97;91;92;98;93;99],[97;98;100],false);
(false,[97;91;92;98;93;99],[97;98;101],false);
(false,[97;91;92;98;93;99],[98],false);
(false,[97;91;92;98;93;99],[98;98],false);
(false,[97;91;92;98;93;99],[98;99;100],false);
(false,[97;91;92;98;93;99],[98;100;105;114;47],false);
(false,[97;91;92;98;93;99],[66;101;119;97;114;101],false);
(false,[97;91;92;98;93;99],[99],false);
(false,[97;91;92;98;93;99],[99;97],false);
(false,[97;91;92;98;93;99],[99;98],false);
(false,[97;91;92;98;93;99],[100],false);
(false,[97;91;92;98;93;99],[100;100],false);
(false,[97;91;92;98;93;99],[100;101],false);
(false,[97;91;92;98;93;99],[98;97;122],false);
(false,[97;91;92;98;93;99],[98;122;122],false);
(false,[97;91;92;98;93;99],[66;90;90],false);
(false,[97;91;92;98;93;99],[98;101;119;97;114;101],false);
(false,[97;91;92;98;93;99],[66;101;119;65;114;101],false);
(false,[97;91;98;45;100;93;99],[42],false);
(false,[97;91;98;45;100;93;99],[42;42],false);
(false,[97;91;98;45;100;93;99],[92;42],false);
(false,[97;91;98;45;100;93;99],[97],false);
(false,[97;91;98;45;100;93;99],[97;47;42],false);
(false,[97;91;98;45;100;93;99],[97;98;99],true);
(false,[97;91;98;45;100;93;99],[97;98;100],false);
(false,[97;91;98;45;100;93;99],[97;98;101],false);
(false,[97;91;98;45;100;93;99],[98],false);
(false,[97;91;98;45;100;93;99],[98;98],false);
(false,[97;91;98;45;100;93;99],[98;99;100],false);
(false,[97;91;98;45;100;93;99],[98;100;105;114;47],false);
(false,[97;91;98;45;100;93;99],[66;101;119;97;114;101],false);
(false,[97;91;98;45;100;93;99],[99],false);
(false,[97;91;98;45;100;93;99],[99;97],false);
(false,[97;91;98;45;100;93;99],[99;98],false);
(false,[97;91;98;45;100;93;99],[100],false);
(false,[97;91;98;45;100;93;99],[100;100],false);
(false,[97;91;98;45;100;93;99],[100;101],false);
(false,[97;91;98;45;100;93;99],[98;97;122],false);
(false,[97;91;98;45;100;93;99],[98;122;122],false);
(false,[97;91;98;45;100;93;99],[66;90;90],false);
(false,[97;91;98;45;100;93;99],[98;101;119;97;114;101],false);
(false,[97;91;98;45;100;93;99],[66;101;119;65;114;101],false);
(false,[97;63;99],[42],false);
(false,[97;63;99],[42;42],false);
(false,[97;63;99],[92;42],false);
(false,[97;63;99],[97],false);
(false,[97;63;99],[97;47;42],false);
(false,[97;63;99],[97;98;99],true);
(false,[97;63;99],[97;98;100],false);
(false,[97;63;99],[97;98;101],false);
(false,[97;63;99],[98],false);
(false,[97;63;99],[98;98],false);
(false,[97;63;99],[98;99;100],false);
(false,[97;63;99],[98;100;105;114;47],false);
(false,[97;63;99],[66;101;119;97;114;101],false);
(false,[97;63;99],[99],false);
(false,[97;63;99],[99;97],false);
(false,[97;63;99],[99;98],false);
(false,[97;63;99],[100],false);
(false,[97;63;99],[100;100],false);
(false,[97;63;99],[100;101],false);
(false,[97;63;99],[98;97;122],false);
(false,[97;63;99],[98;122;122],false);
(false,[97;63;99],[66;90;90],false);
(false,[97;63;99],[98;101;119;97;114;101],false);
(false,[97;63;99],[66;101;119;65;114;101],false);
(false,[42;47;109;97;110;42;47;98;97;115;104;46;42],[109;97;110;47;109;97;110;49;47;98;97;115;104;46;49],true);
(false,[91;94;97;45;99;93;42],[42],true);
(false,[91;94;97;45;99;93;42],[42;42],true);
(false,[91;94;97;45;99;93;42],[97],false);
(false,[91;94;97;45;99;93;42],[97;47;42],false);
(false,[91;94;97;45;99;93;42],[97;98;99],false);
(false,[91;94;97;45;99;93;42],[97;98;100],false);
(false,[91;94;97;45;99;93;42],[97;98;101],false);
(false,[91;94;97;45;99;93;42],[98],false);
(false,[91;94;97;45;99;93;42],[98;98],false);
(false,[91;94;97;45;99;93;42],[98;99;100],false);
(false,[91;94;97;45;99;93;42],[98;100;105;114;47],false);
(false,[91;94;97;45;99;93;42],[66;101;119;97;114;101],true);
(false,[91;94;97;45;99;93;42],[66;101;119;97;114;101],true);
(false,[91;94;97;45;99;93;42],[99],false);
(false,[91;94;97;45;99;93;42],[99;97],false);
(false,[91;94;97;45;99;93;42],[99;98],false);
(false,[91;94;97;45;99;93;42],[100],true);
(false,[91;94;97;45;99;93;42],[100;100],true);
(false,[91;94;97;45;99;93;42],[100;101],true);
(false,[91;94;97;45;99;93;42],[98;97;122],false);
(false,[91;94;97;45;99;93;42],[98;122;122],false);
(false,[91;94;97;45;99;93;42],[66;90;90],true);
(false,[91;94;97;45;99;93;42],[98;101;119;97;114;101],false);
(false,[91;94;97;45;99;93;42],[66;101;119;65;114;101],true);
(false,[97;91;93;45;93;98],[97;97;98],false);
(false,[91;116;101;110;93],[116;101;110],false);
(false,[93],[93],true);
(false,[97;91;93;45;93;98],[97;45;98],true);
(false,[97;91;93;45;93;98],[97;93;98],true);
(false,[97;91;93;93;98],[97;93;98],true);
(false,[97;91;92;93;97;92;45;93;98],[97;97;98],true);
(false,[116;91;97;45;103;93;110],[116;101;110],true);
(false,[116;91;94;97;45;103;93;110],[116;111;110],true);
(false,[102;111;111;91;47;93;98;97;114],[102;111;111;47;98;97;114],true);
(false,[102;91;94;101;105;117;93;91;94;101;105;117;93;91;94;101;105;117;93;91;94;101;105;117;93;91;94;101;105;117;93;114],[102;111;111;45;98;97;114],true);
(false,[97;42;42;99],[98;98;99],false);
(false,[97;42;42;99],[97;98;99],true);
(false,[97;42;42;99],[98;98;100],false);
(false,[97;42;42;42;99],[98;98;99],false);
(false,[97;42;42;42;99],[97;98;99],true);
(false,[97;42;42;42;99],[98;98;100],false);
(false,[97;42;42;42;42;42;63;99],[98;98;99],false);
(false,[97;42;42;42;42;42;63;99],[97;98;99],true);
(false,[97;42;42;42;42;42;63;99],[98;98;99],false);
(false,[63;42;42;42;42;42;63;63],[98;98;99],true);
(false,[63;42;42;42;42;42;63;63],[97;98;99],true);
(false,[42;42;42;42;42;63;63],[98;98;99],true);
(false,[42;42;42;42;42;63;63],[97;98;99],true);
(false,[63;42;42;42;42;42;63;99],[98;98;99],true);
(false,[63;42;42;42;42;42;63;99],[97;98;99],true);
(false,[63;42;42;42;63;42;42;42;42;99],[98;98;99],true);
(false,[63;42;42;42;63;42;42;42;42;99],[97;98;99],true);
(false,[63;42;42;42;63;42;42;42;42;99],[98;98;100],false);
(false,[63;42;42;42;63;42;42;42;42;63],[98;98;99],true);
(false,[63;42;42;42;63;42;42;42;42;63],[97;98;99],true);
(false,[63;42;42;42;63;42;42;42;42],[98;98;99],true);
(false,[63;42;42;42;63;42;42;42;42],[97;98;99],true);
(false,[42;42;42;42;42;42;42;99],[98;98;99],true);
(false,[42;42;42;42;42;42;42;99],[97;98;99],true);
(false,[42;42;42;42;42;42;42;63],[98;98;99],true);
(false,[42;42;42;42;42;42;42;63],[97;98;99],true);
(false,[97;42;99;100;42;42;63;42;42;63;63;107],[97;98;99;100;101;99;100;104;106;107],true);
(false,[97;42;42;63;42;42;99;100;42;42;63;42;42;63;63;107],[97;98;99;100;101;99;100;104;106;107],true);
(false,[97;42;42;63;42;42;99;100;42;42;63;42;42;63;63;107;42;42;42],[97;98;99;100;101;99;100;104;106;107],true);
(false,[97;42;42;63;42;42;99;100;42;42;63;42;42;63;63;42;42;42;107],[97;98;99;100;101;99;100;104;106;107],true);
(false,[97;42;42;63;42;42;99;100;42;42;63;42;42;63;63;42;42;42;107;42;42],[97;98;99;100;101;99;100;104;106;107],true);
(false,[97;42;42;42;42;99;42;42;63;42;42;63;63;42;42;42;42;42],[97;98;99;100;101;99;100;104;106;107],true);
(false,[42;46;106;115],[97;47;98;47;99;47;122;46;106;115],false);
(false,[42;46;106;115],[97;47;98;47;122;46;106;115],false);
(false,[42;46;106;115],[97;47;122;46;106;115],false);
(false,[42;46;106;115],[122;46;106;115],true);
(false,[122;42;46;106;115],[122;46;106;115],true);
(false,[42;47;42],[97;47;122],true);
(false,[42;47;122;42;46;106;115],[97;47;122;46;106;115],true);
(false,[97;47;122;42;46;106;115],[97;47;122;46;106;115],true);
(false,[42],[97;98],true);
(false,[42],[97;98;99],true);
(false,[102;42],[98;97;114],false);
(false,[42;114],[102;111;111],false);
(false,[98;42],[102;111;111],false);
(false,[42],[102;111;111;47;98;97;114],false);
(false,[42;99],[97;98;99],true);
(false,[97;42],[97;98;99],true);
(false,[97;42;99],[97;98;99],true);
(false,[42;114],[98;97;114],true);
(false,[98;42],[98;97;114],true);
(false,[102;42],[102;111;111],true);
(false,[42;97;98;99;42],[111;110;101;32;97;98;99;32;116;119;111],true);
(false,[97;42;98],[97;32;32;32;32;32;32;32;32;32;98],true);
(false,[42;97;42],[102;111;111],false);
(false,[42;97;42],[98;97;114],true);
(false,[42;97;98;99;42],[111;110;101;97;98;99;116;119;111],true);
(false,[42;45;98;99;45;42],[97;45;98;46;99;45;100],false);
(false,[42;45;42;46;42;45;42],[97;45;98;46;99;45;100],true);
(false,[42;45;98;42;99;45;42],[97;45;98;46;99;45;100],true);
(false,[42;45;98;46;99;45;42],[97;45;98;46;99;45;100],true);
(false,[42;46;42],[97;45;98;46;99;45;100],true);
(false,[42;46;42;45;42],[97;45;98;46;99;45;100],true);
(false,[42;46;42;45;100],[97;45;98;46;99;45;100],true);
(false,[42;46;99;45;42],[97;45;98;46;99;45;100],true);
(false,[42;98;46;42;100],[97;45;98;46;99;45;100],true);
(false,[97;42;46;99;42],[97;45;98;46;99;45;100],true);
(false,[97;45;42;46;42;45;100],[97;45;98;46;99;45;100],true);
(false,[42;46;42],[97;46;98],true);
(false,[42;46;98],[97;46;98],true);
(false,[97;46;42],[97;46;98],true);
(false,[97;46;98],[97;46;98],true);
(false,[42;42;45;98;99;45;42;42],[97;45;98;46;99;45;100],false);
(false,[42;42;45;42;42;46;42;42;45;42;42],[97;45;98;46;99;45;100],true);
(false,[42;42;45;98;42;42;99;45;42;42],[97;45;98;46;99;45;100],true);
(false,[42;42;45;98;46;99;45;42;42],[97;45;98;46;99;45;100],true);
(false,[42;42;46;42;42],[97;45;98;46;99;45;100],true);
(false,[42;42;46;42;42;45;42;42],[97;45;98;46;99;45;100],true);
(false,[42;42;46;42;42;45;100],[97;45;98;46;99;45;100],true);
(false,[42;42;46;99;45;42;42],[97;45;98;46;99;45;100],true);
(false,[42;42;98;46;42;42;100],[97;45;98;46;99;45;100],true);
(false,[97;42;42;46;99;42;42],[97;45;98;46;99;45;100],true);
(false,[97;45;42;42;46;42;42;45;100],[97;45;98;46;99;45;100],true);
(false,[42;42;46;42;42],[97;46;98],true);
(false,[42;42;46;98],[97;46;98],true);
(false,[97;46;42;42],[97;46;98],true);
(false,[97;46;98],[97;46;98],true);
(false,[42;47;42],[47;97;98],true);
(false,[46],[46],true);
(false,[97;47],[97;47;46;98],false);
(false,[47;42],[47;97;98],true);
(false,[47;63;63],[47;97;98],true);
(false,[47;63;98],[47;97;98],true);
(false,[47;42],[47;99;100],true);
(false,[97],[97],true);
(false,[97;47;46;42],[97;47;46;98],true);
(false,[63;47;63],[97;47;98],true);
(false,[97;47;42;42;47;106;47;42;42;47;122;47;42;46;109;100],[97;47;98;47;99;47;100;47;101;47;106;47;110;47;112;47;111;47;122;47;99;46;109;100],true);
(false,[97;47;42;42;47;122;47;42;46;109;100],[97;47;98;47;99;47;100;47;101;47;122;47;99;46;109;100],true);
(false,[97;47;98;47;99;47;42;46;109;100],[97;47;98;47;99;47;120;121;122;46;109;100],true);
(false,[97;47;98;47;99;47;42;46;109;100],[97;47;98;47;99;47;120;121;122;46;109;100],true);
(false,[97;47;42;47;122;47;46;97],[97;47;98;47;122;47;46;97],true);
(false,[98;122],[97;47;98;47;122;47;46;97],false);
(false,[97;47;42;42;47;99;47;42;46;109;100],[97;47;98;98;46;98;98;47;97;97;47;98;46;98;47;97;97;47;99;47;120;121;122;46;109;100],true);
(false,[97;47;42;42;47;99;47;42;46;109;100],[97;47;98;98;46;98;98;47;97;97;47;98;98;47;97;97;47;99;47;120;121;122;46;109;100],true);
(false,[97;47;42;47;99;47;42;46;109;100],[97;47;98;98;46;98;98;47;99;47;120;121;122;46;109;100],true);
(false,[97;47;42;47;99;47;42;46;109;100],[97;47;98;98;47;99;47;120;121;122;46;109;100],true);
(false,[97;47;42;47;99;47;42;46;109;100],[97;47;98;98;98;98;47;99;47;120;121;122;46;109;100],true);
(false,[42],[97;97;97],true);
(false,[42],[97;98],true);
(false,[97;98],[97;98],true);
(false,[42;47;42;47;42],[97;97;97],false);
(false,[42;47;42;47;42],[97;97;97;47;98;98;47;97;97;47;114;114],false);
(false,[97;97;97;42],[97;97;97;47;98;98;97;47;99;99;99],false);
(false,[97;97;97;47;42],[97;97;97;47;98;98;97;47;99;99;99],false);
(false,[97;97;97;47;42;99;99;99],[97;97;97;47;98;98;97;47;99;99;99],false);
(false,[97;97;97;47;42;122],[97;97;97;47;98;98;97;47;99;99;99],false);
(false,[42;47;42;47;42],[97;97;97;47;98;98;98],false);
(false,[42;47;42;106;107;42;47;42;105],[97;98;47;122;122;122;47;101;106;107;108;47;104;105],false);
(false,[42;47;42;47;42],[97;97;97;47;98;98;97;47;99;99;99],true);
(false,[97;97;97;47;42;42],[97;97;97;47;98;98;97;47;99;99;99],true);
(false,[97;97;97;47;42],[97;97;97;47;98;98;98],true);
(false,[42;47;42;122;42;47;42;47;42;105],[97;98;47;122;122;122;47;101;106;107;108;47;104;105],true);
(false,[42;106;42;105],[97;98;122;122;122;101;106;107;108;104;105],true);
(false,[42],[97],true);
(false,[42],[98],true);
(false,[42],[97;47;97],false);
(false,[42],[97;47;97;47;97],false);
(false,[42],[97;47;97;47;98],false);
(false,[42],[97;47;97;47;97;47;97],false);
(false,[42],[97;47;97;47;97;47;97;47;97],false);
(false,[42;47;42],[97],false);
(false,[42;47;42],[97;47;97],true);
(false,[42;47;42],[97;47;97;47;97],false);
(false,[42;47;42;47;42],[97],false);
(false,[42;47;42;47;42],[97;47;97],false);
(false,[42;47;42;47;42],[97;47;97;47;97],true);
(false,[42;47;42;47;42],[97;47;97;47;97;47;97],false);
(false,[42;47;42;47;42;47;42],[97],false);
(false,[42;47;42;47;42;47;42],[97;47;97],false);
(false,[42;47;42;47;42;47;42],[97;47;97;47;97],false);
(false,[42;47;42;47;42;47;42],[97;47;97;47;97;47;97],true);
(false,[42;47;42;47;42;47;42],[97;47;97;47;97;47;97;47;97],false);
(false,[42;47;42;47;42;47;42;47;42],[97],false);
(false,[42;47;42;47;42;47;42;47;42],[97;47;97],false);
(false,[42;47;42;47;42;47;42;47;42],[97;47;97;47;97],false);
(false,[42;47;42;47;42;47;42;47;42],[97;47;97;47;98],false);
(false,[42;47;42;47;42;47;42;47;42],[97;47;97;47;97;47;97],false);
(false,[42;47;42;47;42;47;42;47;42],[97;47;97;47;97;47;97;47;97],true);
(false,[42;47;42;47;42;47;42;47;42],[97;47;97;47;97;47;97;47;97;47;97],false);
(false,[97;47;42],[97],false);
(false,[97;47;42],[97;47;97],true);
(false,[97;47;42],[97;47;97;47;97],false);
(false,[97;47;42],[97;47;97;47;97;47;97],false);
(false,[97;47;42],[97;47;97;47;97;47;97;47;97],false);
(false,[97;47;42;47;42],[97],false);
(false,[97;47;42;47;42],[97;47;97],false);
(false,[97;47;42;47;42],[97;47;97;47;97],true);
(false,[97;47;42;47;42],[98;47;97;47;97],false);
(false,[97;47;42;47;42],[97;47;97;47;97;47;97],false);
(false,[97;47;42;47;42],[97;47;97;47;97;47;97;47;97],false);
(false,[97;47;42;47;42;47;42],[97],false);
(false,[97;47;42;47;42;47;42],[97;47;97],false);
(false,[97;47;42;47;42;47;42],[97;47;97;47;97],false);
(false,[97;47;42;47;42;47;42],[97;47;97;47;97;47;97],true);
(false,[97;47;42;47;42;47;42],[97;47;97;47;97;47;97;47;97],false);
(false,[97;47;42;47;42;47;42;47;42],[97],false);
(false,[97;47;42;47;42;47;42;47;42],[97;47;97],false);
(false,[97;47;42;47;42;47;42;47;42],[97;47;97;47;97],false);
(false,[97;47;42;47;42;47;42;47;42],[97;47;97;47;98],false);
(false,[97;47;42;47;42;47;42;47;42],[97;47;97;47;97;47;97],false);
(false,[97;47;42;47;42;47;42;47;42],[97;47;97;47;97;47;97;47;97],true);
(false,[97;47;42;47;97],[97],false);
(false,[97;47;42;47;97],[97;47;97],false);
(false,[97;47;42;47;97],[97;47;97;47;97],true);
(false,[97;47;42;47;97],[97;47;97;47;98],false);
(false,[97;47;42;47;97],[97;47;97;47;97;47;97],false);
(false,[97;47;42;47;97],[97;47;97;47;97;47;97;47;97],false);
(false,[97;47;42;47;98],[97],false);
(false,[97;47;42;47;98],[97;47;97],false);
(false,[97;47;42;47;98],[97;47;97;47;97],false);
(false,[97;47;42;47;98],[97;47;97;47;98],true);
(false,[97;47;42;47;98],[97;47;97;47;97;47;97],false);
(false,[97;47;42;47;98],[97;47;97;47;97;47;97;47;97],false);
(false,[42;47;42;42;47;97],[97],false);
(false,[42;47;42;42;47;97],[97;47;97;47;98],false);
(false,[42;47;42;42;47;97],[97;47;97],true);
(false,[42;47;42;42;47;97],[97;47;97;47;97],true);
(false,[42;47;42;42;47;97],[97;47;97;47;97;47;97],true);
(false,[42;47;42;42;47;97],[97;47;97;47;97;47;97;47;97],true);
(false,[42;47],[97],false);
(false,[42;47;42],[97],false);
(false,[97;47;42],[97],false);
(false,[42],[97;47;97],false);
(false,[42;47],[97;47;97],false);
(false,[42;47],[97;47;120;47;121],false);
(false,[42;47;42],[97;47;120;47;121],false);
(false,[97;47;42],[97;47;120;47;121],false);
(false,[42],[97],true);
(false,[42;47],[97;47],true);
(false,[42;123;44;47;125],[97;47],true);
(false,[42;47;42],[97;47;97],true);
(false,[97;47;42],[97;47;97],true);
(false,[97;47;42;42;47;42;46;116;120;116],[97;46;116;120;116],false);
(false,[97;47;42;42;47;42;46;116;120;116],[97;47;120;47;121;46;116;120;116],true);
(false,[97;47;42;42;47;42;46;116;120;116],[97;47;120;47;121;47;122],false);
(false,[97;47;42;46;116;120;116],[97;46;116;120;116],false);
(false,[97;47;42;46;116;120;116],[97;47;98;46;116;120;116],true);
(false,[97;47;42;46;116;120;116],[97;47;120;47;121;46;116;120;116],false);
(false,[97;47;42;46;116;120;116],[97;47;120;47;121;47;122],false);
(false,[97;42;46;116;120;116],[97;46;116;120;116],true);
(false,[97;42;46;116;120;116],[97;47;98;46;116;120;116],false);
(false,[97;42;46;116;120;116],[97;47;120;47;121;46;116;120;116],false);
(false,[97;42;46;116;120;116],[97;47;120;47;121;47;122],false);
(false,[42;46;116;120;116],[97;46;116;120;116],true);
(false,[42;46;116;120;116],[97;47;98;46;116;120;116],false);
(false,[42;46;116;120;116],[97;47;120;47;121;46;116;120;116],false);
(false,[42;46;116;120;116],[97;47;120;47;121;47;122],false);
(false,[97;42],[97;47;98],false);
(false,[97;47;42;42;47;98],[97;47;97;47;98;98],false);
(false,[97;47;42;42;47;98],[97;47;98;98],false);
(false,[42;47;42;42],[102;111;111],false);
(false,[42;42;47],[102;111;111;47;98;97;114],false);
(false,[42;42;47;42;47],[102;111;111;47;98;97;114],false);
(false,[42;47;42;47],[102;111;111;47;98;97;114],false);
(false,[42;42;47;46;46],[47;104;111;109;101;47;102;111;111;47;46;46],true);
(false,[42;42;47;97],[97],true);
(false,[42;42],[97;47;97],true);
(false,[97;47;42;42],[97;47;97],true);
(false,[97;47;42;42],[97;47],true);
(false,[42;42;47],[97;47;97],false);
(false,[42;42;47],[97;47;97],false);
(false,[42;47;42;42;47;97],[97;47;97],true);
(false,[42;47;42;42],[102;111;111;47],true);
(false,[42;42;47;42],[102;111;111;47;98;97;114],true);
(false,[42;47;42],[102;111;111;47;98;97;114],true);
(false,[42;47;42;42],[102;111;111;47;98;97;114],true);
(false,[42;42;47],[102;111;111;47;98;97;114;47],true);
(false,[42;42;47;42;47],[102;111;111;47;98;97;114;47],true);
(false,[42;47;42;42],[102;111;111;47;98;97;114;47],true);
(false,[42;47;42;47],[102;111;111;47;98;97;114;47],true);
(false,[42;47;102;111;111],[98;97;114;47;98;97;122;47;102;111;111],false);
(false,[42;42;47;98;97;114;47;42],[100;101;101;112;47;102;111;111;47;98;97;114],false);
(false,[42;47;98;97;114;47;42;42],[100;101;101;112;47;102;111;111;47;98;97;114;47;98;97;122;47;120],false);
(false,[47;42],[101;102],false);
(false,[102;111;111;63;98;97;114],[102;111;111;47;98;97;114],false);
(false,[42;42;47;98;97;114;42],[102;111;111;47;98;97;114;47;98;97;122],false);
(false,[102;111;111;42;42;98;97;114],[102;111;111;47;98;97;122;47;98;97;114],false);
(false,[102;111;111;42;98;97;114],[102;111;111;47;98;97;122;47;98;97;114],false);
(false,[47;42],[47;97;98],true);
(false,[47;42],[47;99;100],true);
(false,[47;42],[47;101;102],true);
(false,[97;47;42;42;47;106;47;42;42;47;122;47;42;46;109;100],[97;47;98;47;106;47;99;47;122;47;120;46;109;100],true);
(false,[97;47;42;42;47;106;47;42;42;47;122;47;42;46;109;100],[97;47;106;47;122;47;120;46;109;100],true);
(false,[42;42;47;102;111;111],[98;97;114;47;98;97;122;47;102;111;111],true);
(false,[42;42;47;98;97;114;47;42],[100;101;101;112;47;102;111;111;47;98;97;114;47;98;97;122],true);
(false,[42;42;47;98;97;114;47;42;42],[100;101;101;112;47;102;111;111;47;98;97;114;47;98;97;122;47],true);
(false,[42;42;47;98;97;114;47;42;47;42],[100;101;101;112;47;102;111;111;47;98;97;114;47;98;97;122;47;120],true);
(false,[102;111;111;47;42;42;47;42;42;47;98;97;114],[102;111;111;47;98;47;97;47;122;47;98;97;114],true);
(false,[102;111;111;47;42;42;47;98;97;114],[102;111;111;47;98;47;97;47;122;47;98;97;114],true);
(false,[102;111;111;47;42;42;47;42;42;47;98;97;114],[102;111;111;47;98;97;114],true);
(false,[102;111;111;47;42;42;47;98;97;114],[102;111;111;47;98;97;114],true);
(false,[42;47;98;97;114;47;42;42],[102;111;111;47;98;97;114;47;98;97;122;47;120],true);
(false,[102;111;111;47;42;42;47;42;42;47;98;97;114],[102;111;111;47;98;97;122;47;98;97;114],true);
(false,[102;111;111;47;42;42;47;98;97;114],[102;111;111;47;98;97;122;47;98;97;114],true);
(false,[42;42;47;102;111;111],[88;88;88;47;102;111;111],true);
(false,[42;42;47;42;46;106;115],[97;47;98;47;99;47;100;46;106;115],true);
(false,[42;42;47;42;46;106;115],[97;47;98;47;99;46;106;115],true);
(false,[42;42;47;42;46;106;115],[97;47;98;46;106;115],true);
(false,[97;47;98;47;42;42;47;42;46;106;115],[97;47;98;47;99;47;100;47;101;47;102;46;106;115],true);
(false,[97;47;98;47;42;42;47;42;46;106;115],[97;47;98;47;99;47;100;47;101;46;106;115],true);
(false,[97;47;98;47;99;47;42;42;47;42;46;106;115],[97;47;98;47;99;47;100;46;106;115],true);
(false,[97;47;98;47;42;42;47;42;46;106;115],[97;47;98;47;99;47;100;46;106;115],true);
(false,[97;47;98;47;42;42;47;42;46;106;115],[97;47;98;47;100;46;106;115],true);
(false,[97;47;98;47;42;42;47;42;46;106;115],[97;47;100;46;106;115],false);
(false,[97;47;98;47;42;42;47;42;46;106;115],[100;46;106;115],false);
(false,[42;42;99],[97;47;98;47;99],false);
(false,[97;47;42;42;99],[97;47;98;47;99],false);
(false,[97;47;42;42;122],[97;47;98;47;99],false);
(false,[97;47;42;42;98;42;42;47;99],[97;47;98;47;99;47;98;47;99],false);
(false,[97;47;98;47;99;42;42;47;42;46;106;115],[97;47;98;47;99;47;100;47;101;46;106;115],false);
(false,[97;47;42;42;47;98;47;42;42;47;99],[97;47;98;47;99;47;98;47;99],true);
(false,[97;47;42;42;98;42;42;47;99],[97;47;97;98;97;47;99],true);
(false,[97;47;42;42;98;42;42;47;99],[97;47;98;47;99],true);
(false,[97;47;98;47;99;42;42;47;42;46;106;115],[97;47;98;47;99;47;100;46;106;115],true);
(false,[97;47;42;42;47;42],[97],false);
(false,[97;47;42;42;47;42;42;47;42],[97],false);
(false,[97;47;42;42;47;42;42;47;42;42;47;42],[97],false);
(false,[42;42;47;97],[97;47],false);
(false,[97;47;42;42;47;42],[97;47],false);
(false,[97;47;42;42;47;42;42;47;42],[97;47],false);
(false,[97;47;42;42;47;42;42;47;42;42;47;42],[97;47],false);
(false,[42;42;47;97],[97;47;98],false);
(false,[97;47;42;42;47;106;47;42;42;47;122;47;42;46;109;100],[97;47;98;47;99;47;106;47;101;47;122;47;99;46;116;120;116],false);
(false,[97;47;42;42;47;98],[97;47;98;98],false);
(false,[42;42;47;97],[97;47;99],false);
(false,[42;42;47;97],[97;47;98],false);
(false,[42;42;47;97],[97;47;120;47;121],false);
(false,[42;42;47;97],[97;47;98;47;99;47;100],false);
(false,[42;42],[97],true);
(false,[42;42;47;97],[97],true);
(false,[42;42],[97;47],true);
(false,[42;42;47;97;47;42;42],[97;47],true);
(false,[97;47;42;42],[97;47],true);
(false,[97;47;42;42;47;42;42],[97;47],true);
(false,[42;42;47;97],[97;47;97],true);
(false,[42;42],[97;47;98],true);
(false,[42;47;42],[97;47;98],true);
(false,[97;47;42;42],[97;47;98],true);
(false,[97;47;42;42;47;42],[97;47;98],true);
(false,[97;47;42;42;47;42;42;47;42],[97;47;98],true);
(false,[97;47;42;42;47;42;42;47;42;42;47;42],[97;47;98],true);
(false,[97;47;42;42;47;98],[97;47;98],true);
(false,[42;42],[97;47;98;47;99],true);
(false,[42;42;47;42],[97;47;98;47;99],true);
(false,[42;42;47;42;42],[97;47;98;47;99],true);
(false,[42;47;42;42],[97;47;98;47;99],true);
(false,[97;47;42;42],[97;47;98;47;99],true);
(false,[97;47;42;42;47;42],[97;47;98;47;99],true);
(false,[97;47;42;42;47;42;42;47;42],[97;47;98;47;99],true);
(false,[97;47;42;42;47;42;42;47;42;42;47;42],[97;47;98;47;99],true);
(false,[42;42],[97;47;98;47;99;47;100],true);
(false,[97;47;42;42],[97;47;98;47;99;47;100],true);
(false,[97;47;42;42;47;42],[97;47;98;47;99;47;100],true);
(false,[97;47;42;42;47;42;42;47;42],[97;47;98;47;99;47;100],true);
(false,[97;47;42;42;47;42;42;47;42;42;47;42],[97;47;98;47;99;47;100],true);
(false,[97;47;98;47;42;42;47;99;47;42;42;47;42;46;42],[97;47;98;47;99;47;100;46;101],true);
(false,[97;47;42;42;47;102;47;42;46;109;100],[97;47;98;47;99;47;100;47;101;47;102;47;103;46;109;100],true);
(false,[97;47;42;42;47;102;47;42;42;47;107;47;42;46;109;100],[97;47;98;47;99;47;100;47;101;47;102;47;103;47;104;47;105;47;106;47;107;47;108;46;109;100],true);
(false,[97;47;98;47;99;47;42;46;109;100],[97;47;98;47;99;47;100;101;102;46;109;100],true);
(false,[97;47;42;47;99;47;42;46;109;100],[97;47;98;98;46;98;98;47;99;47;100;100;100;46;109;100],true);
(false,[97;47;42;42;47;102;47;42;46;109;100],[97;47;98;98;46;98;98;47;99;99;47;100;46;100;47;101;101;47;102;47;103;103;103;46;109;100],true);
(false,[97;47;42;42;47;102;47;42;46;109;100],[97;47;98;98;46;98;98;47;99;99;47;100;100;47;101;101;47;102;47;103;103;103;46;109;100],true);
(false,[97;47;42;47;99;47;42;46;109;100],[97;47;98;98;47;99;47;100;100;100;46;109;100],true);
(false,[97;47;42;47;99;47;42;46;109;100],[97;47;98;98;98;98;47;99;47;100;100;100;46;109;100],true);
(false,[102;111;111;47;98;97;114;47;42;42;47;111;110;101;47;42;42;47;42;46;42],[102;111;111;47;98;97;114;47;98;97;122;47;111;110;101;47;105;109;97;103;101;46;112;110;103],true);
(false,[102;111;111;47;98;97;114;47;42;42;47;111;110;101;47;42;42;47;42;46;42],[102;111;111;47;98;97;114;47;98;97;122;47;111;110;101;47;116;119;111;47;105;109;97;103;101;46;112;110;103],true);
(false,[102;111;111;47;98;97;114;47;42;42;47;111;110;101;47;42;42;47;42;46;42],[102;111;111;47;98;97;114;47;98;97;122;47;111;110;101;47;116;119;111;47;116;104;114;101;101;47;105;109;97;103;101;46;112;110;103],true);
(false,[97;47;98;47;42;42;47;102],[97;47;98;47;99;47;100;47],false);
(false,[42;42],[97],true);
(false,[42;42],[97;47],true);
(false,[97;47;42;42],[97;47],true);
(false,[42;42],[97;47;98;47;99;47;100],true);
(false,[42;42],[97;47;98;47;99;47;100;47],true);
(false,[42;42;47;42;42],[97;47;98;47;99;47;100;47],true);
(false,[42;42;47;98;47;42;42],[97;47;98;47;99;47;100;47],true);
(false,[97;47;98;47;42;42],[97;47;98;47;99;47;100;47],true);
(false,[97;47;98;47;42;42;47],[97;47;98;47;99;47;100;47],true);
(false,[97;47;98;47;42;42;47;99;47;42;42;47],[97;47;98;47;99;47;100;47],true);
(false,[97;47;98;47;42;42;47;99;47;42;42;47;100;47],[97;47;98;47;99;47;100;47],true);
(false,[97;47;98;47;42;42;47;42;42;47;42;46;42],[97;47;98;47;99;47;100;47;101;46;102],true);
(false,[97;47;98;47;42;42;47;42;46;42],[97;47;98;47;99;47;100;47;101;46;102],true);
(false,[97;47;98;47;42;42;47;99;47;42;42;47;100;47;42;46;42],[97;47;98;47;99;47;100;47;101;46;102],true);
(false,[97;47;98;47;42;42;47;100;47;42;42;47;42;46;42],[97;47;98;47;99;47;100;47;101;46;102],true);
(false,[97;47;98;47;42;42;47;100;47;42;42;47;42;46;42],[97;47;98;47;99;47;100;47;103;47;101;46;102],true);
(false,[97;47;98;47;42;42;47;100;47;42;42;47;42;46;42],[97;47;98;47;99;47;100;47;103;47;103;47;101;46;102],true);
(false,[97;47;98;45;42;47;42;42;47;122;46;106;115],[97;47;98;45;99;47;122;46;106;115],true);
(false,[97;47;98;45;42;47;42;42;47;122;46;106;115],[97;47;98;45;99;47;100;47;101;47;122;46;106;115],true);
(false,[42;47;42],[97;47;98],true);
(false,[97;47;98;47;99;47;42;46;109;100],[97;47;98;47;99;47;120;121;122;46;109;100],true);
(false,[97;47;42;47;99;47;42;46;109;100],[97;47;98;98;46;98;98;47;99;47;120;121;122;46;109;100],true);
(false,[97;47;42;47;99;47;42;46;109;100],[97;47;98;98;47;99;47;120;121;122;46;109;100],true);
(false,[97;47;42;47;99;47;42;46;109;100],[97;47;98;98;98;98;47;99;47;120;121;122;46;109;100],true);
(false,[42;42;47;42],[97;47;98;47;99],true);
(false,[42;42;47;42;42],[97;47;98;47;99],true);
(false,[42;47;42;42],[97;47;98;47;99],true);
(false,[97;47;42;42;47;106;47;42;42;47;122;47;42;46;109;100],[97;47;98;47;99;47;100;47;101;47;106;47;110;47;112;47;111;47;122;47;99;46;109;100],true);
(false,[97;47;42;42;47;122;47;42;46;109;100],[97;47;98;47;99;47;100;47;101;47;122;47;99;46;109;100],true);
(false,[97;47;42;42;47;99;47;42;46;109;100],[97;47;98;98;46;98;98;47;97;97;47;98;46;98;47;97;97;47;99;47;120;121;122;46;109;100],true);
(false,[97;47;42;42;47;99;47;42;46;109;100],[97;47;98;98;46;98;98;47;97;97;47;98;98;47;97;97;47;99;47;120;121;122;46;109;100],true);
(false,[97;47;42;42;47;106;47;42;42;47;122;47;42;46;109;100],[97;47;98;47;99;47;106;47;101;47;122;47;99;46;116;120;116],false);
(false,[97;47;98;47;42;42;47;99;123;100;44;101;125;47;42;42;47;120;121;122;46;109;100],[97;47;98;47;99;47;120;121;122;46;109;100],false);
(false,[97;47;98;47;42;42;47;99;123;100;44;101;125;47;42;42;47;120;121;122;46;109;100],[97;47;98;47;100;47;120;121;122;46;109;100],false);
(false,[97;47;42;42;47],[97;47;98],false);
(false,[97;47;42;42;47],[97;47;98;47;99;47;100],false);
(false,[97;47;42;42;47],[97;47;98;98],false);
(false,[97;47;42;42;47],[97;47;99;98],false);
(false,[47;42;42],[47;97;47;98],true);
(false,[42;42;47;42],[97;46;98],true);
(false,[42;42;47;42],[97;46;106;115],true);
(false,[42;42;47;42;46;106;115],[97;46;106;115],true);
(false,[42;42;47;42;46;106;115],[97;47;97;46;106;115],true);
(false,[42;42;47;42;46;106;115],[97;47;97;47;98;46;106;115],true);
(false,[97;47;42;42;47;98],[97;47;98],true);
(false,[97;47;42;42;98],[97;47;98],true);
(false,[42;42;47;42;46;109;100],[97;47;98;46;109;100],true);
(false,[42;42;47;42],[97;47;98;47;99;46;106;115],true);
(false,[42;42;47;42],[97;47;98;47;99;46;116;120;116],true);
(false,[97;47;42;42;47],[97;47;98;47;99;47;100;47],true);
(false,[42;42;47;42],[97;47;98;47;99;47;100;47;97;46;106;115],true);
(false,[97;47;98;47;42;42;47;42;46;106;115],[97;47;98;47;99;47;122;46;106;115],true);
(false,[97;47;98;47;42;42;47;42;46;106;115],[97;47;98;47;122;46;106;115],true);
(false,[42;42;47;42],[97;98],true);
(false,[42;42;47;42],[97;98;47;99],true);
(false,[42;42;47;42],[97;98;47;99;47;100],true);
(false,[42;42;47;42],[97;98;99;46;106;115],true);
(false,[42;42;47],[97],false);
(false,[42;42;47;97;47;42],[97],false);
(false,[42;42;47;97;47;42;47;42],[97],false);
(false,[42;47;97;47;42;42],[97],false);
(false,[97;47;42;42;47;42],[97],false);
(false,[97;47;42;42;47;42;42;47;42],[97],false);
(false,[42;42;47],[97;47;98],false);
(false,[42;42;47;98;47;42],[97;47;98],false);
(false,[42;42;47;98;47;42;47;42],[97;47;98],false);
(false,[98;47;42;42],[97;47;98],false);
(false,[42;42;47],[97;47;98;47;99],false);
(false,[42;42;47;42;42;47;98],[97;47;98;47;99],false);
(false,[42;42;47;98],[97;47;98;47;99],false);
(false,[42;42;47;98;47;42;47;42],[97;47;98;47;99],false);
(false,[98;47;42;42],[97;47;98;47;99],false);
(false,[42;42;47],[97;47;98;47;99;47;100],false);
(false,[42;42;47;100;47;42],[97;47;98;47;99;47;100],false);
(false,[98;47;42;42],[97;47;98;47;99;47;100],false);
(false,[42;42],[97],true);
(false,[42;42;47;42;42],[97],true);
(false,[42;42;47;42;42;47;42],[97],true);
(false,[42;42;47;42;42;47;97],[97],true);
(false,[42;42;47;97],[97],true);
(false,[42;42],[97;47;98],true);
(false,[42;42;47;42;42],[97;47;98],true);
(false,[42;42;47;42;42;47;42],[97;47;98],true);
(false,[42;42;47;42;42;47;98],[97;47;98],true);
(false,[42;42;47;98],[97;47;98],true);
(false,[97;47;42;42],[97;47;98],true);
(false,[97;47;42;42;47;42],[97;47;98],true);
(false,[97;47;42;42;47;42;42;47;42],[97;47;98],true);
(false,[42;42],[97;47;98;47;99],true);
(false,[42;42;47;42;42],[97;47;98;47;99],true);
(false,[42;42;47;42;42;47;42],[97;47;98;47;99],true);
(false,[42;42;47;98;47;42],[97;47;98;47;99],true);
(false,[42;42;47;98;47;42;42],[97;47;98;47;99],true);
(false,[42;47;98;47;42;42],[97;47;98;47;99],true);
(false,[97;47;42;42],[97;47;98;47;99],true);
(false,[97;47;42;42;47;42],[97;47;98;47;99],true);
(false,[97;47;42;42;47;42;42;47;42],[97;47;98;47;99],true);
(false,[42;42],[97;47;98;47;99;47;100],true);
(false,[42;42;47;42;42],[97;47;98;47;99;47;100],true);
(false,[42;42;47;42;42;47;42],[97;47;98;47;99;47;100],true);
(false,[42;42;47;42;42;47;100],[97;47;98;47;99;47;100],true);
(false,[42;42;47;98;47;42;42],[97;47;98;47;99;47;100],true);
(false,[42;42;47;98;47;42;47;42],[97;47;98;47;99;47;100],true);
(false,[42;42;47;100],[97;47;98;47;99;47;100],true);
(false,[42;47;98;47;42;42],[97;47;98;47;99;47;100],true);
(false,[97;47;42;42],[97;47;98;47;99;47;100],true);
(false,[97;47;42;42;47;42],[97;47;98;47;99;47;100],true);
(false,[97;47;42;42;47;42;42;47;42],[97;47;98;47;99;47;100],true);
(false,[227;131;149;42;47;42;42;47;42],[227;131;149;227;130;169;227;131;171;227;131;128;47;97;97;97;46;106;115],true);
(false,[227;131;149;227;130;169;42;47;42;42;47;42],[227;131;149;227;130;169;227;131;171;227;131;128;47;97;97;97;46;106;115],true);
(false,[227;131;149;227;130;169;227;131;171;42;47;42;42;47;42],[227;131;149;227;130;169;227;131;171;227;131;128;47;97;97;97;46;106;115],true);
(false,[227;131;149;42;227;131;171;42;47;42;42;47;42],[227;131;149;227;130;169;227;131;171;227;131;128;47;97;97;97;46;106;115],true);
(false,[227;131;149;227;130;169;227;131;171;227;131;128;47;42;42;47;42],[227;131;149;227;130;169;227;131;171;227;131;128;47;97;97;97;46;106;115],true);
(false,[33;42],[97;98;99],false);
(false,[33;97;98;99],[97;98;99],false);
(false,[42;33;46;109;100],[98;97;114;46;109;100],false);
(false,[102;111;111;33;46;109;100],[98;97;114;46;109;100],false);
(false,[92;33;42;33;42;46;109;100],[102;111;111;33;46;109;100],false);
(false,[92;33;42;33;42;46;109;100],[102;111;111;33;98;97;114;46;109;100],false);
(false,[42;33;42;46;109;100],[33;102;111;111;33;46;109;100],true);
(false,[92;33;42;33;42;46;109;100],[33;102;111;111;33;46;109;100],true);
(false,[33;42;102;111;111],[97;98;99],true);
(false,[33;102;111;111;42],[97;98;99],true);
(false,[33;120;121;122],[97;98;99],true);
(false,[42;33;42;46;42],[98;97;33;114;46;106;115],true);
(false,[42;46;109;100],[98;97;114;46;109;100],true);
(false,[42;33;42;46;42],[102;111;111;33;46;109;100],true);
(false,[42;33;42;46;109;100],[102;111;111;33;46;109;100],true);
(false,[42;33;46;109;100],[102;111;111;33;46;109;100],true);
(false,[42;46;109;100],[102;111;111;33;46;109;100],true);
(false,[102;111;111;33;46;109;100],[102;111;111;33;46;109;100],true);
(false,[42;33;42;46;109;100],[102;111;111;33;98;97;114;46;109;100],true);
(false,[42;98;42;46;109;100],[102;111;111;98;97;114;46;109;100],true);
(false,[97;33;33;98],[97],false);
(false,[97;33;33;98],[97;97],false);
(false,[97;33;33;98],[97;47;98],false);
(false,[97;33;33;98],[97;33;98],false);
(false,[97;33;33;98],[97;33;33;98],true);
(false,[97;33;33;98],[97;47;33;33;47;98],false);
(false,[33;97;47;98],[97;47;98],false);
(false,[33;97;47;98],[97],true);
(false,[33;97;47;98],[97;46;98],true);
(false,[33;97;47;98],[97;47;97],true);
(false,[33;97;47;98],[97;47;99],true);
(false,[33;97;47;98],[98;47;97],true);
(false,[33;97;47;98],[98;47;98],true);
(false,[33;97;47;98],[98;47;99],true);
(false,[33;97;98;99],[97;98;99],false);
(false,[33;33;97;98;99],[97;98;99],true);
(false,[33;33;33;97;98;99],[97;98;99],false);
(false,[33;33;33;33;97;98;99],[97;98;99],true);
(false,[33;33;33;33;33;97;98;99],[97;98;99],false);
(false,[33;33;33;33;33;33;97;98;99],[97;98;99],true);
(false,[33;33;33;33;33;33;33;97;98;99],[97;98;99],false);
(false,[33;33;33;33;33;33;33;33;97;98;99],[97;98;99],true);
(false,[33;42],[97],false);
(false,[33;42],[97;46;98],false);
(false,[33;42;47;42],[97;47;97],false);
(false,[33;42;47;42],[97;47;98],false);
(false,[33;42;47;42],[97;47;99],false);
(false,[33;42;47;42],[98;47;97],false);
(false,[33;42;47;42],[98;47;98],false);
(false,[33;42;47;42],[98;47;99],false);
(false,[33;42;47;98],[97;47;98],false);
(false,[33;42;47;98],[98;47;98],false);
(false,[33;42;47;99],[97;47;99],false);
(false,[33;42;47;99],[97;47;99],false);
(false,[33;42;47;99],[98;47;99],false);
(false,[33;42;47;99],[98;47;99],false);
(false,[33;42;97;42],[98;97;114],false);
(false,[33;42;97;42],[102;97;98],false);
(false,[33;97;47;42],[97;47;97],false);
(false,[33;97;47;42],[97;47;98],false);
(false,[33;97;47;42],[97;47;99],false);
(false,[33;102;42;98],[102;97;98],false);
(false,[33;42],[97;47;97],true);
(false,[33;42],[97;47;98],true);
(false,[33;42],[97;47;99],true);
(false,[33;42],[98;47;97],true);
(false,[33;42],[98;47;98],true);
(false,[33;42],[98;47;99],true);
(false,[33;42;47;42],[97],true);
(false,[33;42;47;42],[97;46;98],true);
(false,[33;42;47;98],[97],true);
(false,[33;42;47;98],[97;46;98],true);
(false,[33;42;47;98],[97;47;97],true);
(false,[33;42;47;98],[97;47;99],true);
(false,[33;42;47;98],[98;47;97],true);
(false,[33;42;47;98],[98;47;99],true);
(false,[33;42;47;99],[97],true);
(false,[33;42;47;99],[97;46;98],true);
(false,[33;42;47;99],[97;47;97],true);
(false,[33;42;47;99],[97;47;98],true);
(false,[33;42;47;99],[98;47;97],true);
(false,[33;42;47;99],[98;47;98],true);
(false,[33;42;97;42],[102;111;111],true);
(false,[33;97;47;42],[97],true);
(false,[33;97;47;42],[97;46;98],true);
(false,[33;97;47;42],[98;47;97],true);
(false,[33;97;47;42],[98;47;98],true);
(false,[33;97;47;42],[98;47;99],true);
(false,[33;102;42;98],[98;97;114],true);
(false,[33;102;42;98],[102;111;111],true);
(false,[33;46;109;100],[46;109;100],false);
(false,[33;42;42;47;42;46;109;100],[97;46;106;115],true);
(false,[33;42;42;47;42;46;109;100],[99;46;116;120;116],true);
(false,[33;42;46;109;100],[97;46;106;115],true);
(false,[33;42;46;109;100],[98;46;109;100],false);
(false,[33;42;46;109;100],[99;46;116;120;116],true);
(false,[33;42;46;109;100],[97;98;99;46;109;100],false);
(false,[33;42;46;109;100],[97;98;99;46;116;120;116],true);
(false,[33;42;46;109;100],[102;111;111;46;109;100],false);
(false,[33;46;109;100],[102;111;111;46;109;100],true);
(false,[33;42;46;109;100],[97;46;106;115],true);
(false,[33;42;46;109;100],[98;46;116;120;116],true);
(false,[33;42;46;109;100],[99;46;109;100],false);
(false,[33;97;47;42;47;97;46;106;115],[97;47;97;47;97;46;106;115],false);
(false,[33;97;47;42;47;97;46;106;115],[97;47;98;47;97;46;106;115],false);
(false,[33;97;47;42;47;97;46;106;115],[97;47;99;47;97;46;106;115],false);
(false,[33;97;47;42;47;42;47;97;46;106;115],[97;47;97;47;97;47;97;46;106;115],false);
(false,[33;97;47;42;47;42;47;97;46;106;115],[98;47;97;47;98;47;97;46;106;115],true);
(false,[33;97;47;42;47;42;47;97;46;106;115],[99;47;97;47;99;47;97;46;106;115],true);
(false,[33;97;47;97;42;46;116;120;116],[97;47;97;46;116;120;116],false);
(false,[33;97;47;97;42;46;116;120;116],[97;47;98;46;116;120;116],true);
(false,[33;97;47;97;42;46;116;120;116],[97;47;99;46;116;120;116],true);
(false,[33;97;46;97;42;46;116;120;116],[97;46;97;46;116;120;116],false);
(false,[33;97;46;97;42;46;116;120;116],[97;46;98;46;116;120;116],true);
(false,[33;97;46;97;42;46;116;120;116],[97;46;99;46;116;120;116],true);
(false,[33;97;47;42;46;116;120;116],[97;47;97;46;116;120;116],false);
(false,[33;97;47;42;46;116;120;116],[97;47;98;46;116;120;116],false);
(false,[33;97;47;42;46;116;120;116],[97;47;99;46;116;120;116],false);
(false,[33;42;46;109;100],[97;46;106;115],true);
(false,[33;42;46;109;100],[98;46;116;120;116],true);
(false,[33;42;46;109;100],[99;46;109;100],false);
(false,[33;42;42;47;97;46;106;115],[97;47;97;47;98;46;106;115],true);
(false,[33;97;47;42;42;47;97;46;106;115],[97;47;97;47;97;47;97;46;106;115],false);
(false,[33;97;47;42;42;47;97;46;106;115],[98;47;97;47;98;47;97;46;106;115],true);
(false,[33;97;47;42;42;47;97;46;106;115],[99;47;97;47;99;47;97;46;106;115],true);
(false,[33;42;42;47;42;46;109;100],[97;47;98;46;106;115],true);
(false,[33;42;42;47;42;46;109;100],[97;46;106;115],true);
(false,[33;42;42;47;42;46;109;100],[97;47;98;46;109;100],false);
(false,[42;42;47;42;46;109;100],[97;47;98;46;106;115],false);
(false,[42;42;47;42;46;109;100],[97;46;106;115],false);
(false,[42;42;47;42;46;109;100],[97;47;98;46;109;100],true);
(false,[42;42;47;42;46;109;100],[97;46;109;100],true);
(false,[33;42;42;47;42;46;109;100],[97;47;98;46;106;115],true);
(false,[33;42;42;47;42;46;109;100],[97;46;106;115],true);
(false,[33;42;42;47;42;46;109;100],[97;47;98;46;109;100],false);
(false,[33;42;46;109;100],[97;47;98;46;106;115],true);
(false,[33;42;46;109;100],[97;46;106;115],true);
(false,[33;42;46;109;100],[97;47;98;46;109;100],true);
(false,[33;42;46;109;100],[97;46;109;100],false);
(false,[33;42;42;47;42;46;109;100],[97;46;106;115],true);
(false,[33;42;42;47;42;46;109;100],[99;46;116;120;116],true);
(false,[63],[97],true);
(false,[63],[97;97],false);
(false,[63],[97;98],false);
(false,[63],[97;97;97],false);
(false,[63],[97;98;99;100;101;102;103],false);
(false,[63;63],[97],false);
(false,[63;63],[97;97],true);
(false,[63;63],[97;98],true);
(false,[63;63],[97;97;97],false);
(false,[63;63],[97;98;99;100;101;102;103],false);
(false,[63;63;63],[97],false);
(false,[63;63;63],[97;97],false);
(false,[63;63;63],[97;98],false);
(false,[63;63;63],[97;97;97],true);
(false,[63;63;63],[97;98;99;100;101;102;103],false);
(false,[97;63;99],[97;97;97],false);
(false,[97;63;99],[97;97;99],true);
(false,[97;63;99],[97;98;99],true);
(false,[97;98;63],[97],false);
(false,[97;98;63],[97;97],false);
(false,[97;98;63],[97;98],false);
(false,[97;98;63],[97;99],false);
(false,[97;98;63],[97;98;99;100],false);
(false,[97;98;63],[97;98;98;98],false);
(false,[97;63;98],[97;99;98],true);
(false,[97;47;63;47;99;47;63;47;101;46;109;100],[97;47;98;98;47;99;47;100;100;47;101;46;109;100],false);
(false,[97;47;63;63;47;99;47;63;63;47;101;46;109;100],[97;47;98;98;47;99;47;100;100;47;101;46;109;100],true);
(false,[97;47;63;63;47;99;46;109;100],[97;47;98;98;98;47;99;46;109;100],false);
(false,[97;47;63;47;99;46;109;100],[97;47;98;47;99;46;109;100],true);
(false,[97;47;63;47;99;47;63;47;101;46;109;100],[97;47;98;47;99;47;100;47;101;46;109;100],true);
(false,[97;47;63;47;99;47;63;63;63;47;101;46;109;100],[97;47;98;47;99;47;100;47;101;46;109;100],false);
(false,[97;47;63;47;99;47;63;63;63;47;101;46;109;100],[97;47;98;47;99;47;122;122;122;47;101;46;109;100],true);
(false,[97;47;63;47;99;46;109;100],[97;47;98;98;47;99;46;109;100],false);
(false,[97;47;63;63;47;99;46;109;100],[97;47;98;98;47;99;46;109;100],true);
(false,[97;47;63;63;63;47;99;46;109;100],[97;47;98;98;98;47;99;46;109;100],true);
(false,[97;47;63;63;63;63;47;99;46;109;100],[97;47;98;98;98;98;47;99;46;109;100],true);
(false,[123;97;44;98;44;99;125],[97],true);
(false,[123;97;44;98;44;99;125],[98],true);
(false,[123;97;44;98;44;99;125],[99],true);
(false,[123;97;44;98;44;99;125],[97;97],false);
(false,[123;97;44;98;44;99;125],[98;98],false);
(false,[123;97;44;98;44;99;125],[99;99],false);
(false,[97;47;123;97;44;98;125],[97;47;97],true);
(false,[97;47;123;97;44;98;125],[97;47;98],true);
(false,[97;47;123;97;44;98;125],[97;47;99],false);
(false,[97;47;123;97;44;98;125],[98;47;98],false);
(false,[97;47;123;97;44;98;44;99;125],[98;47;98],false);
(false,[97;47;123;97;44;98;44;99;125],[97;47;99],true);
(false,[97;123;98;44;98;99;125;46;116;120;116],[97;98;99;46;116;120;116],true);
(false,[102;111;111;91;123;97;44;98;125;93;98;97;122],[102;111;111;123;98;97;122],true);
(false,[97;123;44;98;125;46;116;120;116],[97;98;99;46;116;120;116],false);
(false,[97;123;97;44;98;44;125;46;116;120;116],[97;98;99;46;116;120;116],false);
(false,[97;123;98;44;125;46;116;120;116],[97;98;99;46;116;120;116],false);
(false,[97;123;44;98;125;46;116;120;116],[97;46;116;120;116],true);
(false,[97;123;98;44;125;46;116;120;116],[97;46;116;120;116],true);
(false,[97;123;97;44;98;44;125;46;116;120;116],[97;97;46;116;120;116],true);
(false,[97;123;97;44;98;44;125;46;116;120;116],[97;97;46;116;120;116],true);
(false,[97;123;44;98;125;46;116;120;116],[97;98;46;116;120;116],true);
(false,[97;123;98;44;125;46;116;120;116],[97;98;46;116;120;116],true);
(false,[97;123;97;44;98;47;125;42;46;116;120;116],[97;97;46;116;120;116],true);
(false,[97;123;97;44;98;47;125;42;46;116;120;116],[97;98;47;46;116;120;116],true);
(false,[97;123;97;44;98;47;125;42;46;116;120;116],[97;98;47;97;46;116;120;116],true);
(false,[123;97;47;44;125;97;47;42;42],[97;47;97;47],true);
(false,[123;97;47;44;125;97;47;42;42],[97;47;97;47;97],true);
(false,[123;97;47;44;125;97;47;42;42],[97;47;97;47],true);
(false,[123;97;47;44;125;97;47;42;42],[97;47;97;47;97;47],true);
(false,[123;97;47;44;125;98;47;42;42],[97;47;98;47;97;47],true);
(false,[123;97;47;44;125;98;47;42;42],[98;47;97;47],true);
(false,[97;123;44;47;125;42;46;116;120;116],[97;46;116;120;116],true);
(false,[97;123;44;47;125;42;46;116;120;116],[97;98;46;116;120;116],true);
(false,[97;123;44;47;125;42;46;116;120;116],[97;47;98;46;116;120;116],true);
(false,[97;123;44;47;125;42;46;116;120;116],[97;47;97;98;46;116;120;116],true);
(false,[97;123;44;46;42;123;102;111;111;44;100;98;125;44;92;40;98;97;114;92;41;125;46;116;120;116],[97;46;116;120;116],true);
(false,[97;123;44;46;42;123;102;111;111;44;100;98;125;44;92;40;98;97;114;92;41;125;46;116;120;116],[97;100;98;46;116;120;116],false);
(false,[97;123;44;46;42;123;102;111;111;44;100;98;125;44;92;40;98;97;114;92;41;125;46;116;120;116],[97;46;100;98;46;116;120;116],true);
(false,[97;123;44;42;46;123;102;111;111;44;100;98;125;44;92;40;98;97;114;92;41;125;46;116;120;116],[97;46;116;120;116],true);
(false,[97;123;44;42;46;123;102;111;111;44;100;98;125;44;92;40;98;97;114;92;41;125;46;116;120;116],[97;100;98;46;116;120;116],false);
(false,[97;123;44;42;46;123;102;111;111;44;100;98;125;44;92;40;98;97;114;92;41;125;46;116;120;116],[97;46;100;98;46;116;120;116],true);
(false,[97;123;44;46;42;123;102;111;111;44;100;98;125;44;92;40;98;97;114;92;41;125],[97;100;98],false);
(false,[97;123;44;46;42;123;102;111;111;44;100;98;125;44;92;40;98;97;114;92;41;125],[97;46;100;98],true);
(false,[97;123;44;42;46;123;102;111;111;44;100;98;125;44;92;40;98;97;114;92;41;125],[97;100;98],false);
(false,[97;123;44;42;46;123;102;111;111;44;100;98;125;44;92;40;98;97;114;92;41;125],[97;46;100;98],true);
(false,[123;44;46;42;123;102;111;111;44;100;98;125;44;92;40;98;97;114;92;41;125],[97],false);
(false,[123;44;46;42;123;102;111;111;44;100;98;125;44;92;40;98;97;114;92;41;125],[97;100;98],false);
(false,[123;44;46;42;123;102;111;111;44;100;98;125;44;92;40;98;97;114;92;41;125],[97;46;100;98],false);
(false,[123;44;46;42;123;102;111;111;44;100;98;125;44;92;40;98;97;114;92;41;125],[46;100;98],true);
(false,[123;44;42;46;123;102;111;111;44;100;98;125;44;92;40;98;97;114;92;41;125],[97],false);
(false,[123;42;44;42;46;123;102;111;111;44;100;98;125;44;92;40;98;97;114;92;41;125],[97],true);
(false,[123;44;42;46;123;102;111;111;44;100;98;125;44;92;40;98;97;114;92;41;125],[97;100;98],false);
(false,[123;44;42;46;123;102;111;111;44;100;98;125;44;92;40;98;97;114;92;41;125],[97;46;100;98],true);
(false,[97;47;98;47;42;42;47;99;123;100;44;101;125;47;42;42;47;120;121;122;46;109;100],[97;47;98;47;99;47;120;121;122;46;109;100],false);
(false,[97;47;98;47;42;42;47;99;123;100;44;101;125;47;42;42;47;120;121;122;46;109;100],[97;47;98;47;100;47;120;121;122;46;109;100],false);
(false,[97;47;98;47;42;42;47;99;123;100;44;101;125;47;42;42;47;120;121;122;46;109;100],[97;47;98;47;99;100;47;120;121;122;46;109;100],true);
(false,[97;47;98;47;42;42;47;123;99;44;100;44;101;125;47;42;42;47;120;121;122;46;109;100],[97;47;98;47;99;47;120;121;122;46;109;100],true);
(false,[97;47;98;47;42;42;47;123;99;44;100;44;101;125;47;42;42;47;120;121;122;46;109;100],[97;47;98;47;100;47;120;121;122;46;109;100],true);
(false,[97;47;98;47;42;42;47;123;99;44;100;44;101;125;47;42;42;47;120;121;122;46;109;100],[97;47;98;47;101;47;120;121;122;46;109;100],true);
(false,[42;123;97;44;98;125;42],[120;97;120],true);
(false,[42;123;97;44;98;125;42],[120;120;97;120],true);
(false,[42;123;97;44;98;125;42],[120;98;120],true);
(false,[42;123;42;97;44;98;125],[120;98;97],true);
(false,[42;123;42;97;44;98;125],[120;98],true);
(false,[42;63;63],[97],false);
(false,[42;63;63;63],[97;97],false);
(false,[42;63;63;63],[97;97;97],true);
(false,[42;42;42;42;42;63;63],[97],false);
(false,[42;42;42;42;42;63;63;63],[97;97],false);
(false,[42;42;42;42;42;63;63;63],[97;97;97],true);
(false,[97;42;63;99],[97;97;97],false);
(false,[97;42;63;99],[97;97;99],true);
(false,[97;42;63;99],[97;98;99],true);
(false,[97;42;42;63;99],[97;98;99],true);
(false,[97;42;42;63;99],[97;98;98],false);
(false,[97;42;42;63;99],[97;99;99],true);
(false,[97;42;42;42;42;42;63;99],[97;98;99],true);
(false,[42;42;42;42;42;63],[97],true);
(false,[42;42;42;42;42;63],[97;97],true);
(false,[42;42;42;42;42;63],[97;98;99],true);
(false,[42;42;42;42;42;63],[122;122;122],true);
(false,[42;42;42;42;42;63],[98;98;98],true);
(false,[42;42;42;42;42;63],[97;97;97;97],true);
(false,[42;42;42;42;42;63;63],[97],false);
(false,[42;42;42;42;42;63;63],[97;97],true);
(false,[42;42;42;42;42;63;63],[97;98;99],true);
(false,[42;42;42;42;42;63;63],[122;122;122],true);
(false,[42;42;42;42;42;63;63],[98;98;98],true);
(false,[42;42;42;42;42;63;63],[97;97;97;97],true);
(false,[63;42;42;42;42;42;63;63],[97],false);
(false,[63;42;42;42;42;42;63;63],[97;97],false);
(false,[63;42;42;42;42;42;63;63],[97;98;99],true);
(false,[63;42;42;42;42;42;63;63],[122;122;122],true);
(false,[63;42;42;42;42;42;63;63],[98;98;98],true);
(false,[63;42;42;42;42;42;63;63],[97;97;97;97],true);
(false,[63;42;42;42;42;42;63;99],[97;98;99],true);
(false,[63;42;42;42;42;42;63;99],[97;98;98],false);
(false,[63;42;42;42;42;42;63;99],[122;122;122],false);
(false,[63;42;42;42;63;42;42;42;42;99],[97;98;99],true);
(false,[63;42;42;42;63;42;42;42;42;99],[98;98;98],false);
(false,[63;42;42;42;63;42;42;42;42;99],[122;122;122],false);
(false,[63;42;42;42;63;42;42;42;42;63],[97;98;99],true);
(false,[63;42;42;42;63;42;42;42;42;63],[98;98;98],true);
(false,[63;42;42;42;63;42;42;42;42;63],[122;122;122],true);
(false,[63;42;42;42;63;42;42;42;42],[97;98;99],true);
(false,[42;42;42;42;42;42;42;99],[97;98;99],true);
(false,[42;42;42;42;42;42;42;63],[97;98;99],true);
(false,[97;42;99;100;42;42;63;42;42;63;63;107],[97;98;99;100;101;99;100;104;106;107],true);
(false,[97;42;42;63;42;42;99;100;42;42;63;42;42;63;63;107],[97;98;99;100;101;99;100;104;106;107],true);
(false,[97;42;42;63;42;42;99;100;42;42;63;42;42;63;63;107;42;42;42],[97;98;99;100;101;99;100;104;106;107],true);
(false,[97;42;42;63;42;42;99;100;42;42;63;42;42;63;63;42;42;42;107],[97;98;99;100;101;99;100;104;106;107],true);
(false,[97;42;42;63;42;42;99;100;42;42;63;42;42;63;63;42;42;42;107;42;42],[97;98;99;100;101;99;100;104;106;107],true);
(false,[97;42;42;42;42;99;42;42;63;42;42;63;63;42;42;42;42;42],[97;98;99;100;101;99;100;104;106;107],true);
(false,[97;47;63;47;99;47;63;47;42;47;101;46;109;100],[97;47;98;47;99;47;100;47;101;46;109;100],false);
(false,[97;47;63;47;99;47;63;47;42;47;101;46;109;100],[97;47;98;47;99;47;100;47;101;47;101;46;109;100],true);
(false,[97;47;63;47;99;47;63;47;42;47;101;46;109;100],[97;47;98;47;99;47;100;47;101;102;103;104;105;106;107;47;101;46;109;100],true);
(false,[97;47;63;47;42;42;47;101;46;109;100],[97;47;98;47;99;47;100;47;101;102;103;104;105;106;107;47;101;46;109;100],true);
(false,[97;47;63;47;101;46;109;100],[97;47;98;98;47;101;46;109;100],false);
(false,[97;47;63;63;47;101;46;109;100],[97;47;98;98;47;101;46;109;100],true);
(false,[97;47;63;47;42;42;47;101;46;109;100],[97;47;98;98;47;101;46;109;100],false);
(false,[97;47;63;47;42;42;47;101;46;109;100],[97;47;98;47;99;99;99;47;101;46;109;100],true);
(false,[97;47;42;47;63;47;42;42;47;101;46;109;100],[97;47;98;47;99;47;100;47;101;102;103;104;105;106;107;47;101;46;109;100],true);
(false,[97;47;42;47;63;47;42;42;47;101;46;109;100],[97;47;98;47;99;47;100;47;101;102;103;104;46;105;106;107;47;101;46;109;100],true);
(false,[97;47;42;47;63;47;42;42;47;101;46;109;100],[97;47;98;46;98;98;47;99;47;100;47;101;102;103;104;46;105;106;107;47;101;46;109;100],true);
(false,[97;47;42;47;63;47;42;42;47;101;46;109;100],[97;47;98;98;98;47;99;47;100;47;101;102;103;104;46;105;106;107;47;101;46;109;100],true);
(false,[97;47;42;47;97;98;63;63;46;109;100],[97;47;98;98;98;47;97;98;99;100;46;109;100],true);
(false,[97;47;98;98;98;47;97;98;63;63;46;109;100],[97;47;98;98;98;47;97;98;99;100;46;109;100],true);
(false,[97;47;98;98;98;47;97;98;63;63;63;109;100],[97;47;98;98;98;47;97;98;99;100;46;109;100],true);
(true,[97;98;99],[],true);
(true,[97;98;99],[97],true);
(true,[97;98;99],[97;98],true);
(true,[97;98;99],[97;98;99],true);
(true,[97;98;99],[98],false);
(true,[97;98;99],[97;99],false);
(true,[97;98;99],[97;98;100],false);
(true,[97;98;99],[97;98;99;100],false);
(true,[97;98;99],[97;98;99;97],false);
(true,[33],[],false);
(true,[33;97;98;99],[],false);
(true,[33;97;98;99],[97],false);
(true,[33;97;98;99],[97;98],false);
(true,[33;97;98;99],[97;98;99],false);
(true,[33;97;98;99],[98],true);
(true,[33;97;98;99],[97;99],true);
(true,[33;97;98;99],[97;98;100],true);
(true,[33;97;98;99],[97;98;99;100],true);
(true,[33;97;98;99],[97;98;99;97],true);
(true,[123;44;98;125;116],[116],true);
(true,[123;44;98;125;116],[],true);
(true,[123;44;98;125;116],[98],true);
(true,[123;44;98;125;116],[98;116],true);
(true,[123;44;98;125;116],[116;116],false)
].
Definition glob_case_ok (c : bool * list N * list N * bool) : bool :=
  let '(pre, g, p, e) := c in
  match glob_run g p pre with Ok b => Bool.eqb b e | _ => false end.
Example glob_conformance : forallb glob_case_ok glob_cases = true.
Proof. vm_compute. reflexivity. Qed.
