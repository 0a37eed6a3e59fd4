(** Model of [nyx-core/src/propagators/rk_methods]: the Butcher tables of the six
    integration methods.

    Coefficients are exact numbers of the form x + y*sqrt(6) with x, y rational, exactly
    as the source expressions read; the source evaluates them in binary64 and uses the
    16-digit constant [SQRT6] (rk.rs:83) for the root. *)
From Coq Require Import Reals QArith Qreals.
From Verif Require Import Base Prop_Model.

(** x + y*sqrt(6) *)
Definition q6 : Type := (Q * Q)%type.
Definition rat (x : Q) : q6 := (x, 0%Q).
(** The source's [(x + y * SQRT6) / z]. *)
Definition sqrt6_over (x y : Z) (z : positive) : q6 := ((x # z)%Q, (y # z)%Q).
Definition q6_real (q : q6) : R := (Q2R (fst q) + Q2R (snd q) * sqrt 6)%R.

(** The constants of trait [RK], rk_methods/mod.rs:40-59. *)
Record table := { t_order : nat; t_stages : nat; t_a : list q6; t_b : list q6 }.

Local Open Scope Q_scope.

(** [CashKarp45], propagators/rk_methods/rk.rs:24-58 *)
Definition cash_karp45 : table :=
  {| t_order := 5; t_stages := 6;
     t_a := [
       rat (1 # 5);
       rat (3 # 40);
       rat (9 # 40);
       rat (3 # 10);
       rat (-9 # 10);
       rat (6 # 5);
       rat (-11 # 54);
       rat (5 # 2);
       rat (-70 # 27);
       rat (35 # 27);
       rat (1631 # 55296);
       rat (175 # 512);
       rat (575 # 13824);
       rat (44275 # 110592);
       rat (253 # 4096)];
     t_b := [
       rat (37 # 378);
       rat (0 # 1);
       rat (250 # 621);
       rat (125 # 594);
       rat (0 # 1);
       rat (512 # 1771);
       rat (2825 # 27648);
       rat (0 # 1);
       rat (18575 # 48384);
       rat (13525 # 55296);
       rat (277 # 14336);
       rat (1 # 4)] |}.

(** [RK4Fixed], propagators/rk_methods/rk.rs:66-81 *)
Definition rk4 : table :=
  {| t_order := 4; t_stages := 4;
     t_a := [
       rat (1 # 2);
       rat (0 # 1);
       rat (1 # 2);
       rat (0 # 1);
       rat (0 # 1);
       rat (1 # 1)];
     t_b := [
       rat (1 # 6);
       rat (1 # 3);
       rat (1 # 3);
       rat (1 # 6);
       rat (1 # 6);
       rat (1 # 3);
       rat (1 # 3);
       rat (1 # 6)] |}.

(** [RK89], propagators/rk_methods/rk.rs:91-252 *)
Definition rk89 : table :=
  {| t_order := 9; t_stages := 16;
     t_a := [
       rat (1 # 12);
       rat (1 # 27);
       rat (2 # 27);
       rat (1 # 24);
       rat (0 # 1);
       rat (1 # 8);
       sqrt6_over (4) (94) 375;
       rat (0 # 1);
       sqrt6_over (-94) (-84) 125;
       sqrt6_over (328) (208) 375;
       sqrt6_over (9) (-1) 150;
       rat (0 # 1);
       rat (0 # 1);
       sqrt6_over (312) (32) 1425;
       sqrt6_over (69) (29) 570;
       sqrt6_over (927) (-347) 1250;
       rat (0 # 1);
       rat (0 # 1);
       sqrt6_over (-16248) (7328) 9375;
       sqrt6_over (-489) (179) 3750;
       sqrt6_over (14268) (-5798) 9375;
       rat (2 # 27);
       rat (0 # 1);
       rat (0 # 1);
       rat (0 # 1);
       rat (0 # 1);
       sqrt6_over (16) (-1) 54;
       sqrt6_over (16) (1) 54;
       rat (19 # 256);
       rat (0 # 1);
       rat (0 # 1);
       rat (0 # 1);
       rat (0 # 1);
       sqrt6_over (118) (-23) 512;
       sqrt6_over (118) (23) 512;
       rat (-9 # 256);
       rat (11 # 144);
       rat (0 # 1);
       rat (0 # 1);
       rat (0 # 1);
       rat (0 # 1);
       sqrt6_over (266) (-1) 864;
       sqrt6_over (266) (1) 864;
       rat (-1 # 16);
       rat (-8 # 27);
       sqrt6_over (5034) (-271) 61440;
       rat (0 # 1);
       rat (0 # 1);
       rat (0 # 1);
       rat (0 # 1);
       rat (0 # 1);
       sqrt6_over (7859) (-1626) 10240;
       sqrt6_over (-2232) (813) 20480;
       sqrt6_over (-594) (271) 960;
       sqrt6_over (657) (-813) 5120;
       sqrt6_over (5996) (-3794) 405;
       rat (0 # 1);
       rat (0 # 1);
       rat (0 # 1);
       rat (0 # 1);
       sqrt6_over (-4342) (-338) 9;
       sqrt6_over (154922) (-40458) 135;
       sqrt6_over (-4176) (3794) 45;
       sqrt6_over (-340864) (242816) 405;
       sqrt6_over (26304) (-15176) 45;
       rat (-26624 # 81);
       sqrt6_over (3793) (2168) 103680;
       rat (0 # 1);
       rat (0 # 1);
       rat (0 # 1);
       rat (0 # 1);
       sqrt6_over (4042) (2263) 13824;
       sqrt6_over (-231278) (40717) 69120;
       sqrt6_over (7947) (-2168) 11520;
       sqrt6_over (1048) (-542) 405;
       sqrt6_over (-1383) (542) 720;
       rat (2624 # 1053);
       rat (3 # 1664);
       rat (-137 # 1296);
       rat (0 # 1);
       rat (0 # 1);
       rat (0 # 1);
       rat (0 # 1);
       sqrt6_over (5642) (-337) 864;
       sqrt6_over (5642) (337) 864;
       rat (-299 # 48);
       rat (184 # 81);
       rat (-44 # 9);
       rat (-5120 # 1053);
       rat (-11 # 468);
       rat (16 # 9);
       sqrt6_over (33617) (-2168) 518400;
       rat (0 # 1);
       rat (0 # 1);
       rat (0 # 1);
       rat (0 # 1);
       sqrt6_over (-3846) (31) 13824;
       sqrt6_over (155338) (-52807) 345600;
       sqrt6_over (-12537) (2168) 57600;
       sqrt6_over (92) (542) 2025;
       sqrt6_over (-1797) (-542) 3600;
       rat (320 # 567);
       rat (-1 # 1920);
       rat (4 # 105);
       rat (0 # 1);
       sqrt6_over (-36487) (-30352) 279600;
       rat (0 # 1);
       rat (0 # 1);
       rat (0 # 1);
       rat (0 # 1);
       sqrt6_over (-29666) (-4499) 7456;
       sqrt6_over (2779182) (-615973) 186400;
       sqrt6_over (-94329) (91056) 93200;
       sqrt6_over (-232192) (121408) 17475;
       sqrt6_over (101226) (-22764) 5825;
       rat (-169984 # 9087);
       rat (-87 # 30290);
       rat (492 # 1165);
       rat (0 # 1);
       rat (1260 # 233)];
     t_b := [
       rat (23 # 525);
       rat (0 # 1);
       rat (0 # 1);
       rat (0 # 1);
       rat (0 # 1);
       rat (0 # 1);
       rat (0 # 1);
       rat (171 # 1400);
       rat (86 # 525);
       rat (93 # 280);
       rat (-2048 # 6825);
       rat (-3 # 18200);
       rat (39 # 175);
       rat (0 # 1);
       rat (9 # 25);
       rat (233 # 4200);
       rat ((23 # 525) + (7 # 400));
       rat (0 # 1);
       rat (0 # 1);
       rat (0 # 1);
       rat (0 # 1);
       rat (0 # 1);
       rat (0 # 1);
       rat ((171 # 1400) - (63 # 200));
       rat ((86 # 525) + (14 # 25));
       rat ((93 # 280) - (21 # 20));
       rat ((-2048 # 6825) + (1024 # 975));
       rat ((-3 # 18200) + (21 # 36400));
       rat ((39 # 175) + (3 # 25));
       rat (9 # 280);
       rat (0 # 1);
       rat (0 # 1)] |}.

(** [Dormand45], propagators/rk_methods/dormand.rs:24-66 *)
Definition dormand45 : table :=
  {| t_order := 5; t_stages := 7;
     t_a := [
       rat (1 # 5);
       rat (3 # 40);
       rat (9 # 40);
       rat (44 # 45);
       rat (-56 # 15);
       rat (32 # 9);
       rat (19372 # 6561);
       rat (-25360 # 2187);
       rat (64448 # 6561);
       rat (-212 # 729);
       rat (9017 # 3168);
       rat (-355 # 33);
       rat (46732 # 5247);
       rat (49 # 176);
       rat (-5103 # 18656);
       rat (35 # 384);
       rat (0 # 1);
       rat (500 # 1113);
       rat (125 # 192);
       rat (-2187 # 6784);
       rat (11 # 84)];
     t_b := [
       rat (35 # 384);
       rat (0 # 1);
       rat (500 # 1113);
       rat (125 # 192);
       rat (-2187 # 6784);
       rat (11 # 84);
       rat (0 # 1);
       rat (5179 # 57600);
       rat (0 # 1);
       rat (7571 # 16695);
       rat (393 # 640);
       rat (-92097 # 339200);
       rat (187 # 2100);
       rat (1 # 40)] |}.

(** [Dormand78], propagators/rk_methods/dormand.rs:73-184 *)
Definition dormand78 : table :=
  {| t_order := 8; t_stages := 13;
     t_a := [
       rat (1 # 18);
       rat (1 # 48);
       rat (1 # 16);
       rat (1 # 32);
       rat (0 # 1);
       rat (3 # 32);
       rat (5 # 16);
       rat (0 # 1);
       rat (-75 # 64);
       rat (75 # 64);
       rat (3 # 80);
       rat (0 # 1);
       rat (0 # 1);
       rat (3 # 16);
       rat (3 # 20);
       rat (29443841 # 614563906);
       rat (0 # 1);
       rat (0 # 1);
       rat (77736538 # 692538347);
       rat (-28693883 # 1125000000);
       rat (23124283 # 1800000000);
       rat (16016141 # 946692911);
       rat (0 # 1);
       rat (0 # 1);
       rat (61564180 # 158732637);
       rat (22789713 # 633445777);
       rat (545815736 # 2771057229);
       rat (-180193667 # 1043307555);
       rat (39632708 # 573591083);
       rat (0 # 1);
       rat (0 # 1);
       rat (-433636366 # 683701615);
       rat (-421739975 # 2616292301);
       rat (100302831 # 723423059);
       rat (790204164 # 839813087);
       rat (800635310 # 3783071287);
       rat (246121993 # 1340847787);
       rat (0 # 1);
       rat (0 # 1);
       rat (-37695042795 # 15268766246);
       rat (-309121744 # 1061227803);
       rat (-12992083 # 490766935);
       rat (6005943493 # 2108947869);
       rat (393006217 # 1396673457);
       rat (123872331 # 1001029789);
       rat (-1028468189 # 846180014);
       rat (0 # 1);
       rat (0 # 1);
       rat (8478235783 # 508512852);
       rat (1311729495 # 1432422823);
       rat (-10304129995 # 1701304382);
       rat (-48777925059 # 3047939560);
       rat (15336726248 # 1032824649);
       rat (-45442868181 # 3398467696);
       rat (3065993473 # 597172653);
       rat (185892177 # 718116043);
       rat (0 # 1);
       rat (0 # 1);
       rat (-3185094517 # 667107341);
       rat (-477755414 # 1098053517);
       rat (-703635378 # 230739211);
       rat (5731566787 # 1027545527);
       rat (5232866602 # 850066563);
       rat (-4093664535 # 808688257);
       rat (3962137247 # 1805957418);
       rat (65686358 # 487910083);
       rat (403863854 # 491063109);
       rat (0 # 1);
       rat (0 # 1);
       rat (-5068492393 # 434740067);
       rat (-411421997 # 543043805);
       rat (652783627 # 914296604);
       rat (11173962825 # 925320556);
       rat (-13158990841 # 6184727034);
       rat (3936647629 # 1978049680);
       rat (-160528059 # 685178525);
       rat (248638103 # 1413531060);
       rat (0 # 1)];
     t_b := [
       rat (14005451 # 335480064);
       rat (0 # 1);
       rat (0 # 1);
       rat (0 # 1);
       rat (0 # 1);
       rat (-59238493 # 1068277825);
       rat (181606767 # 758867731);
       rat (561292985 # 797845732);
       rat (-1041891430 # 1371343529);
       rat (760417239 # 1151165299);
       rat (118820643 # 751138087);
       rat (-528747749 # 2220607170);
       rat (1 # 4);
       rat (13451932 # 455176623);
       rat (0 # 1);
       rat (0 # 1);
       rat (0 # 1);
       rat (0 # 1);
       rat (-808719846 # 976000145);
       rat (1757004468 # 5645159321);
       rat (656045339 # 265891186);
       rat (-3867574721 # 1518517206);
       rat (465885868 # 322736535);
       rat (53011238 # 667516719);
       rat (2 # 45);
       rat (0 # 1)] |}.

(** [Verner56], propagators/rk_methods/verner.rs:26-79 *)
Definition verner56 : table :=
  {| t_order := 6; t_stages := 8;
     t_a := [
       rat (1 # 6);
       rat (4 # 75);
       rat (16 # 75);
       rat (5 # 6);
       rat (-8 # 3);
       rat (5 # 2);
       rat (-165 # 64);
       rat (55 # 6);
       rat (-425 # 64);
       rat (85 # 96);
       rat (-8263 # 15000);
       rat (124 # 75);
       rat (-643 # 680);
       rat (-81 # 250);
       rat (2484 # 10625);
       rat (3501 # 1720);
       rat (-300 # 43);
       rat (297275 # 52632);
       rat (-319 # 2322);
       rat (24068 # 84065);
       rat (3850 # 26703);
       rat (12 # 5);
       rat (-8 # 1);
       rat (4015 # 612);
       rat (-11 # 36);
       rat (88 # 255);
       rat (0 # 1);
       rat (0 # 1)];
     t_b := [
       rat (3 # 40);
       rat (0 # 1);
       rat (875 # 2244);
       rat (23 # 72);
       rat (264 # 1955);
       rat (125 # 11592);
       rat (43 # 616);
       rat (0 # 1);
       rat (13 # 160);
       rat (0 # 1);
       rat (2375 # 5984);
       rat (5 # 16);
       rat (12 # 85);
       rat (0 # 1);
       rat (0 # 1);
       rat (3 # 44)] |}.
Local Close Scope Q_scope.

(** The methods offered: [IntegratorMethod], rk_methods/mod.rs:65-79. *)
Inductive integrator :=
  RungeKutta89 | DormandPrince78 | DormandPrince45 | RungeKutta4 | CashKarp45 | Verner56.

(** The dispatch of [IntegratorMethod::order, stages, a_coeffs, b_coeffs],
    rk_methods/mod.rs:81-133. *)
Definition table_of (m : integrator) : table :=
  match m with
  | RungeKutta89 => rk89
  | DormandPrince78 => dormand78
  | DormandPrince45 => dormand45
  | RungeKutta4 => rk4
  | CashKarp45 => cash_karp45
  | Verner56 => verner56
  end.

(** The table as the integrator of [Prop_Model] reads it. *)
Definition method_of (m : integrator) : method :=
  {| stages := t_stages (table_of m); order := t_order (table_of m);
     a_coeffs := map q6_real (t_a (table_of m));
     b_coeffs := map q6_real (t_b (table_of m)) |}.
