(** The predefined machines (freegs/machine.py 871-2835).
    Decimal literals stand for the decimal numbers they are written as.  A machine is its list of
    coils, its wall and R0; the limit points made from the wall are those of Sensors.v. *)
From Coq Require Import String List Arith ZArith Bool.
From Verif Require Import Py Num Numpy Polygons Quadrature Coils Machine Sensors.
Import ListNotations.
Local Open Scope string_scope.
Local Open Scope list_scope.

Section Machines.
  Context {T : Type} `{Num T}.
  Open Scope num_scope.
  Local Notation "'let*' x := e 'in' k" := (bind e (fun x => k))
    (at level 200, x pattern, e at level 100, k at level 200, right associativity).
  (** m * 10^-e *)
  Definition dec (m : BinNums.Z) (e : nat) : T := nlit m (Z.pow 10 (Z.of_nat e)).
  (** Defaults of the constructors: Coil (coil.py 84-113, 34-54), ShapedCoil (shaped_coil.py 64-96),
      FilamentCoil (filament_coil.py 194-203), Solenoid (machine.py 341-357), Circuit (machine.py 85-101) *)
  Definition loop (R Z : T) (turns : BinNums.Z) : coil T := Coil R Z n0 turns true (ALimit (nofZ 3500000000)).
  Definition block (fuel : nat) (shape : list (T * T)) : result (coil T) := ShapedCoil fuel shape n0 1 true 6.
  Definition strands (Rfil Zfil : list T) : result (coil T) := FilamentCoil Rfil Zfil None n0 1 true.
  Definition series (l1 : string) (c1 : coil T) (l2 : string) (c2 : coil T) (m2 : T) : mcoil T :=
    MCircuit (Circuit [(l1, c1, n1); (l2, c2, m2)] n0 true).
  Record tokamak : Type := mktokamak { tk_coils : machine T; tk_wall : option (list (T * T)); tk_R0 : T }.

  (** EmptyTokamak (machine.py 871-875) *)
  Definition EmptyTokamak : tokamak := mktokamak [] None n1.
  (** TestTokamak (machine.py 878-897) *)
  Definition TestTokamak_rwall : list T := [
    dec 75 2; dec 75 2; dec 15 1; dec 18 1; dec 18 1; dec 15 1].
  Definition TestTokamak_zwall : list T := [
    dec (-85) 2; dec 85 2; dec 85 2; dec 25 2; dec (-25) 2; dec (-85) 2].
  Definition TestTokamak_wall : list (T * T) := combine TestTokamak_rwall TestTokamak_zwall.
  Definition TestTokamak (fuel : nat) : result tokamak :=
    let* p1l := block fuel [(dec 95 2, dec (-115) 2); (dec 95 2, dec (-105) 2); (dec 105 2, dec (-105) 2); (dec 105 2, dec (-115) 2)] in
    let* p1u := block fuel [(dec 95 2, dec 115 2); (dec 95 2, dec 105 2); (dec 105 2, dec 105 2); (dec 105 2, dec 115 2)] in
    Ok (mktokamak [
      ("P1L", MCoil p1l);
      ("P1U", MCoil p1u);
      ("P2L", MCoil (loop (dec 175 2) (dec (-6) 1) 1));
      ("P2U", MCoil (loop (dec 175 2) (dec 6 1) 1))]
      (Some TestTokamak_wall) n1).
  (** TestTokamakLimited (machine.py 900-919) *)
  Definition TestTokamakLimited_rwall : list T := [
    dec 93 2; dec 93 2; dec 15 1; dec 18 1; dec 18 1; dec 15 1].
  Definition TestTokamakLimited_zwall : list T := [
    dec (-85) 2; dec 85 2; dec 85 2; dec 25 2; dec (-25) 2; dec (-85) 2].
  Definition TestTokamakLimited_wall : list (T * T) := combine TestTokamakLimited_rwall TestTokamakLimited_zwall.
  Definition TestTokamakLimited (fuel : nat) : result tokamak :=
    let* p1l := block fuel [(dec 95 2, dec (-115) 2); (dec 95 2, dec (-105) 2); (dec 105 2, dec (-105) 2); (dec 105 2, dec (-115) 2)] in
    let* p1u := block fuel [(dec 95 2, dec 115 2); (dec 95 2, dec 105 2); (dec 105 2, dec 105 2); (dec 105 2, dec 115 2)] in
    Ok (mktokamak [
      ("P1L", MCoil p1l);
      ("P1U", MCoil p1u);
      ("P2L", MCoil (loop (dec 175 2) (dec (-6) 1) 1));
      ("P2U", MCoil (loop (dec 175 2) (dec 6 1) 1))]
      (Some TestTokamakLimited_wall) n1).
  (** DIIID (machine.py 960-1025) *)
  Definition DIIID_rwall : list T := [
    dec 1016 3; dec 1016 3; dec 1016 3; dec 1016 3; dec 1016 3; dec 1016 3; dec 1016 3; dec 1016 3; dec 1016 3; dec 1016 3; dec 1016 3; dec 1012 3;
    dec 1001 3; dec 1029 3; dec 1042 3; dec 1046 3; dec 1056 3; dec 1097 3; dec 1108 3; dec 1116 3; dec 1134 3; dec 1148 3; dec 1162 3; dec 1181 3;
    dec 1182 3; dec 1185 3; dec 119 2; dec 1195 3; dec 1201 3; dec 1209 3; dec 1215 3; dec 1222 3; dec 1228 3; dec 1234 3; dec 1239 3; dec 1242 3;
    dec 1248 3; dec 1258 3; dec 1263 3; dec 128 2; dec 128 2; dec 128 2; dec 131 2; dec 1328 3; dec 1361 3; dec 138 2; dec 1419 3; dec 1419 3;
    dec 1372 3; dec 137167 5; dec 137003 5; dec 136688 5; dec 136719 5; dec 137178 5; dec 137224 5; dec 138662 5; dec 138708 5; dec 140382 5;
    dec 141127 5; dec 141857 5; dec 1421 3; dec 148663 5; dec 14973 4; dec 149762 5; dec 149745 5; dec 149275 5; dec 14926 4; dec 149261 5; dec 149279 5;
    dec 14934 4; dec 14947 4; dec 149622 5; dec 147981 5; dec 148082 5; dec 148149 5; dec 148646 5; dec 149095 5; dec 150305 5; dec 159697 5;
    dec 16255 4; dec 163752 5; dec 1647 3; dec 1785 3; dec 207 2; dec 2128 3; dec 2245 3; dec 233956 5; dec 234708 5; dec 234913 5; dec 235103 5;
    dec 235158 5; dec 235125 5; dec 235051 5; dec 234965 5; dec 23487 4; dec 23476 4; dec 23402 4; dec 232942 5; dec 2134 3; dec 1786 3; dec 1768 3;
    dec 1768 3; dec 1682 3; dec 1372 3; dec 1372 3; dec 142 2; dec 142 2; dec 1273 3; dec 1153 3; dec 1016 3; dec 1016 3; dec 1016 3; dec 1016 3;
    dec 1016 3; dec 1016 3; dec 1016 3; dec 1016 3].
  Definition DIIID_zwall : list T := [
    dec 0 0; dec 964 3; dec 968 3; dec 1001 3; dec 1019 3; dec 1077 3; dec 107 2; dec 1096 3; dec 1113 3; dec 1138 3; dec 1147 3; dec 1165 3; dec 1217 3;
    dec 1217 3; dec 11624 4; dec 116238 5; dec 11626 4; dec 11645 4; dec 116594 5; dec 116591 5; dec 116896 5; dec 117175 5; dec 117556 5; dec 1183 3;
    dec 11835 4; dec 1185 3; dec 1188 3; dec 1191 3; dec 1196 3; dec 1202 3; dec 1208 3; dec 1214 3; dec 1221 3; dec 1231 3; dec 1238 3; dec 1244 3;
    dec 1254 3; dec 1278 3; dec 129 2; dec 1331 3; dec 1347 3; dec 1348 3; dec 1348 3; dec 1348 3; dec 1348 3; dec 1348 3; dec 1348 3; dec 131 2;
    dec 131 2; dec 129238 5; dec 128268 5; dec 125644 5; dec 122955 5; dec 119576 5; dec 119402 5; dec 116487 5; dec 116421 5; dec 115696 5; dec 11573 4;
    dec 116132 5; dec 1164 3; dec 12405 4; dec 123458 5; dec 123428 5; dec 123174 5; dec 12133 4; dec 121061 5; dec 120486 5; dec 120214 5; dec 119642 5;
    dec 118511 5; dec 11607 4; dec 112426 5; dec 112256 5; dec 112138 5; dec 111692 5; dec 111439 5; dec 111244 5; dec 109489 5; dec 10853 4;
    dec 107988 5; dec 1077 3; dec 1077 3; dec 104 2; dec 993 3; dec 709 3; dec 46143 5; dec 41583 5; dec 27218 5; dec 17018 5; dec 7012 5; dec (-3179) 5;
    dec (-14435) 5; dec (-21483) 5; dec (-32669) 5; dec (-38677) 5; dec (-45304) 5; dec (-47757) 5; dec (-973) 3; dec (-1174) 3; dec (-1211) 3;
    dec (-125) 2; dec (-125) 2; dec (-125) 2; dec (-1329) 3; dec (-1329) 3; dec (-1363) 3; dec (-1363) 3; dec (-1363) 3; dec (-1223) 3; dec (-1223) 3;
    dec (-83) 2; dec (-8) 1; dec (-415) 3; dec (-4) 1; dec (-1) 3; dec 0 0].
  Definition DIIID_wall : list (T * T) := combine DIIID_rwall DIIID_zwall.
  Definition DIIID (fuel : nat) : result tokamak :=
    let* fc1 := block fuel [(dec 16042 4, dec (-164455) 5); (dec 17736 4, dec (-164455) 5); (dec 17736 4, dec (-151145) 5); (dec 16042 4, dec (-151145) 5)] in
    let* fc2 := block fuel [(dec 8354 4, dec 777 5); (dec 8862 4, dec 777 5); (dec 8862 4, dec 32883 5); (dec 8354 4, dec 32883 5)] in
    let* fc3 := block fuel [(dec 836 3, dec 34757 5); (dec 8868 4, dec 34757 5); (dec 8868 4, dec 66863 5); (dec 836 3, dec 66863 5)] in
    let* fc4 := block fuel [(dec 8374 4, dec 68857 5); (dec 8882 4, dec 68857 5); (dec 8882 4, dec 100963 5); (dec 8374 4, dec 100963 5)] in
    let* fc5 := block fuel [(dec 8357 4, dec 102937 5); (dec 8865 4, dec 102937 5); (dec 8865 4, dec 135043 5); (dec 8357 4, dec 135043 5)] in
    let* fc6 := block fuel [(dec 9345 4, dec 13876 4); (dec 10737 4, dec 15268 4); (dec 10737 4, dec 16462 4); (dec 9345 4, dec 1507 3)] in
    let* fc7 := block fuel [(dec 25298 4, dec 3403 4); (dec 2703 3, dec 3403 4); (dec 26949 4, dec 5349 4); (dec 25217 4, dec 5349 4)] in
    let* fc8 := block fuel [(dec 25387 4, dec 10325 4); (dec 27267 4, dec 10325 4); (dec 22078 4, dec 12017 4); (dec 20198 4, dec 12017 4)] in
    let* fc9 := block fuel [(dec 113435 5, dec 155935 5); (dec 136925 5, dec 155935 5); (dec 136925 5, dec 164445 5); (dec 113435 5, dec 164445 5)] in
    let* fc10 := block fuel [(dec 16043 4, dec 152085 5); (dec 17737 4, dec 152085 5); (dec 17737 4, dec 165395 5); (dec 16043 4, dec 165395 5)] in
    let* fc11 := block fuel [(dec 8354 4, dec (-33423) 5); (dec 8862 4, dec (-33423) 5); (dec 8862 4, dec (-1317) 5); (dec 8354 4, dec (-1317) 5)] in
    let* fc12 := block fuel [(dec 8353 4, dec (-67403) 5); (dec 8861 4, dec (-67403) 5); (dec 8861 4, dec (-35297) 5); (dec 8353 4, dec (-35297) 5)] in
    let* fc13 := block fuel [(dec 8357 4, dec (-101483) 5); (dec 8865 4, dec (-101483) 5); (dec 8865 4, dec (-69377) 5); (dec 8357 4, dec (-69377) 5)] in
    let* fc14 := block fuel [(dec 8376 4, dec (-135623) 5); (dec 8884 4, dec (-135623) 5); (dec 8884 4, dec (-103517) 5); (dec 8376 4, dec (-103517) 5)] in
    let* fc15 := block fuel [(dec 9329 4, dec (-1507) 3); (dec 10721 4, dec (-16462) 4); (dec 10721 4, dec (-15268) 4); (dec 9329 4, dec (-13876) 4)] in
    let* fc16 := block fuel [(dec 25217 4, dec (-5349) 4); (dec 26949 4, dec (-5349) 4); (dec 2703 3, dec (-3403) 4); (dec 25298 4, dec (-3403) 4)] in
    let* fc17 := block fuel [(dec 20299 4, dec (-12017) 4); (dec 22179 4, dec (-12017) 4); (dec 27368 4, dec (-10325) 4); (dec 25488 4, dec (-10325) 4)] in
    let* fc18 := block fuel [(dec 113495 5, dec (-164525) 5); (dec 136985 5, dec (-164525) 5); (dec 136985 5, dec (-156015) 5); (dec 113495 5, dec (-156015) 5)] in
    Ok (mktokamak [
      ("FC1", MCoil fc1);
      ("FC2", MCoil fc2);
      ("FC3", MCoil fc3);
      ("FC4", MCoil fc4);
      ("FC5", MCoil fc5);
      ("FC6", MCoil fc6);
      ("FC7", MCoil fc7);
      ("FC8", MCoil fc8);
      ("FC9", MCoil fc9);
      ("FC10", MCoil fc10);
      ("FC11", MCoil fc11);
      ("FC12", MCoil fc12);
      ("FC13", MCoil fc13);
      ("FC14", MCoil fc14);
      ("FC15", MCoil fc15);
      ("FC16", MCoil fc16);
      ("FC17", MCoil fc17);
      ("FC18", MCoil fc18)]
      (Some DIIID_wall) (dec 16995 4)).
  (** MAST (machine.py 1028-1048) *)
  Definition MAST : tokamak :=
    mktokamak [
      ("P2U", MCoil (loop (dec 49 2) (dec 176 2) 1));
      ("P2L", MCoil (loop (dec 49 2) (dec (-176) 2) 1));
      ("P3U", MCoil (loop (dec 11 1) (dec 11 1) 1));
      ("P3L", MCoil (loop (dec 11 1) (dec (-11) 1) 1));
      ("P4U", MCoil (loop (dec 151 2) (dec 1095 3) 1));
      ("P4L", MCoil (loop (dec 151 2) (dec (-1095) 3) 1));
      ("P5U", MCoil (loop (dec 166 2) (dec 52 2) 1));
      ("P5L", MCoil (loop (dec 166 2) (dec (-52) 2) 1));
      ("P6U", MCoil (loop (dec 15 1) (dec 9 1) 1));
      ("P6L", MCoil (loop (dec 15 1) (dec (-9) 1) 1));
      ("P1", MSolenoid (mksol (dec 15 2) (dec (-14) 1) (dec 14 1) 100 n0 true))]
      None n1.
  (** MAST_sym (machine.py 1051-1076) *)
  Definition MAST_sym : tokamak :=
    mktokamak [
      ("P2", series "P2U" (loop (dec 49 2) (dec 176 2) 1) "P2L" (loop (dec 49 2) (dec (-176) 2) 1) n1);
      ("P3", series "P3U" (loop (dec 11 1) (dec 11 1) 1) "P3L" (loop (dec 11 1) (dec (-11) 1) 1) n1);
      ("P4", series "P4U" (loop (dec 151 2) (dec 1095 3) 1) "P4L" (loop (dec 151 2) (dec (-1095) 3) 1) n1);
      ("P5", series "P5U" (loop (dec 166 2) (dec 52 2) 1) "P5L" (loop (dec 166 2) (dec (-52) 2) 1) n1);
      ("P6", series "P6U" (loop (dec 15 1) (dec 9 1) 1) "P6L" (loop (dec 15 1) (dec (-9) 1) 1) (- n1));
      ("P1", MSolenoid (mksol (dec 15 2) (dec (-145) 2) (dec 145 2) 100 n0 true))]
      None n1.
  (** A Solenoid inside of a Circuit is represented by a coil with the same field: one turn for each of
      its Ns filaments.  (Its forces and its saving are not those of Solenoid.) *)
  Definition winding (Rs Zsmin Zsmax : T) (Ns : nat) : coil T :=
    mkcoil (KFilament [] (map (fun i => (Rs, linspace Zsmin Zsmax Ns i)) (seq 0 Ns)) Ns (Rs, (Zsmin + Zsmax) / n2)) n0 (Z.of_nat Ns) true (ALimit (nofZ 3500000000)).
  (** TCV (machine.py 1079-1127) *)
  Definition TCV : tokamak :=
    mktokamak [
      ("E1", MCoil (loop (dec 505 3) (dec (-7) 1) 1));
      ("E2", MCoil (loop (dec 505 3) (dec (-5) 1) 1));
      ("E3", MCoil (loop (dec 505 3) (dec (-3) 1) 1));
      ("E4", MCoil (loop (dec 505 3) (dec (-1) 1) 1));
      ("E5", MCoil (loop (dec 505 3) (dec 1 1) 1));
      ("E6", MCoil (loop (dec 505 3) (dec 3 1) 1));
      ("E7", MCoil (loop (dec 505 3) (dec 5 1) 1));
      ("E8", MCoil (loop (dec 505 3) (dec 7 1) 1));
      ("F1", MCoil (loop (dec 13095 4) (dec (-77) 2) 1));
      ("F2", MCoil (loop (dec 13095 4) (dec (-61) 2) 1));
      ("F3", MCoil (loop (dec 13095 4) (dec (-31) 2) 1));
      ("F4", MCoil (loop (dec 13095 4) (dec (-15) 2) 1));
      ("F5", MCoil (loop (dec 13095 4) (dec 15 2) 1));
      ("F6", MCoil (loop (dec 13095 4) (dec 31 2) 1));
      ("F7", MCoil (loop (dec 13095 4) (dec 61 2) 1));
      ("F8", MCoil (loop (dec 13095 4) (dec 77 2) 1));
      ("T1", MCoil (loop (dec 1554 3) (dec (-78) 2) 1));
      ("T2", MCoil (loop (dec 1717 3) (dec (-78) 2) 1));
      ("T3", MCoil (loop (dec 1754 3) (dec (-78) 2) 1));
      ("OH", MCircuit (Circuit [("OH1", (winding (dec 43 2) (dec (-93) 2) (dec 93 2) 100), (dec 1 2)); ("C1", (loop (dec 6215 4) (dec (-111) 2) 1), n1); ("C2", (loop (dec 6215 4) (dec 111 2) 1), n1); ("D1", (loop (dec 11765 4) (dec (-117) 2) 1), n1); ("D2", (loop (dec 11765 4) (dec 117 2) 1), n1)] n0 true))]
      None n1.
  (** MASTU_simple (machine.py 1130-1379) *)
  Definition MASTU_simple_rwall : list T := [
    dec 16 1; dec 12503 4; dec 13483 4; dec 147 2; dec 147 2; dec 145 2; dec 145 2; dec 13214 4; dec 11904 4; dec 89296 5; dec 86938 5; dec 83981 5;
    dec 82229 5; dec 81974 5; dec 81974 5; dec 82734 5; dec 8548 4; dec 89017 5; dec 91974 5; dec 94066 5; dec 1555 3; dec 185 2; dec 2 0; dec 2 0;
    dec 2 0; dec 2 0; dec 13188 4; dec 17689 4; dec 17301 4; dec 135 2; dec 109 2; dec 109 2; dec 90576 5; dec 87889 5; dec 87889 5; dec 90717 5;
    dec 53948 5; dec 5112 4; dec 50553 5; dec 53594 5; dec 5074 4; dec 4974 4; dec 5074 4; dec 4788 4; dec 4688 4; dec 4788 4; dec 333 3; dec 333 3;
    dec 275 3; dec 334 3; dec 261 3; dec 261 3; dec 244 3; dec 261 3; dec 261 3; dec 244 3; dec 261 3; dec 261 3].
  Definition MASTU_simple_zwall : list T := [
    dec 1 0; dec 1 0; dec 86 2; dec 86 2; dec 81 2; dec 81 2; dec 82 2; dec 82 2; dec 1007 3; dec 1304 3; dec 13312 4; dec 13826 4; dec 14451 4;
    dec 14812 4; dec 14936 4; dec 15318 4; dec 15696 4; dec 15891 4; dec 15936 4; dec 15936 4; dec 1567 3; dec 108 2; dec 108 2; dec 17 1; dec 2035 3;
    dec 2169 3; dec 2169 3; dec 17189 4; dec 168 2; dec 206 2; dec 206 2; dec 206 2; dec 18786 4; dec 19055 4; dec 19055 4; dec 18772 4; dec 15095 4;
    dec 15378 4; dec 15321 4; dec 15017 4; dec 14738 4; dec 14838 4; dec 14738 4; dec 14458 4; dec 14558 4; dec 14458 4; dec 1303 3; dec 11 1; dec 11 1;
    dec 11 1; dec 502 3; dec 348 3; dec 348 3; dec 348 3; dec 146 3; dec 146 3; dec 146 3; dec 0 0].
  Definition MASTU_simple_wall : list (T * T) := combine (MASTU_simple_rwall ++ rev MASTU_simple_rwall) (MASTU_simple_zwall ++ map nopp (rev MASTU_simple_zwall)).
  Definition MASTU_simple : tokamak :=
    mktokamak [
      ("Solenoid", MSolenoid (mksol (dec 19475 5) (dec (-1581) 3) (dec 1581 3) 324 n0 true));
      ("Pc", MSolenoid (mksol (dec 67 3) (dec (-6) 1) (dec 6 1) 142 n0 true));
      ("Px", series "PxU" (loop (dec 2405 4) (dec 12285 4) 44) "PxL" (loop (dec 2405 4) (dec (-12285) 4) 44) n1);
      ("D1", series "D1U" (loop (dec 381 3) (dec 1555 3) 35) "D1L" (loop (dec 381 3) (dec (-1555) 3) 35) n1);
      ("D2", series "D2U" (loop (dec 574 3) (dec 1734 3) 23) "D2L" (loop (dec 574 3) (dec (-1734) 3) 23) n1);
      ("D3", series "D3U" (loop (dec 815 3) (dec 198 2) 23) "D3L" (loop (dec 815 3) (dec (-198) 2) 23) n1);
      ("Dp", series "DpU" (loop (dec 918 3) (dec 1501 3) 23) "DpL" (loop (dec 918 3) (dec (-1501) 3) 23) n1);
      ("D5", series "D5U" (loop (dec 19 1) (dec 195 2) 27) "D5L" (loop (dec 19 1) (dec (-195) 2) 27) n1);
      ("D6", series "D6U" (loop (dec 1285 3) (dec 147 2) 23) "D6L" (loop (dec 1285 3) (dec (-147) 2) 23) n1);
      ("D7", series "D7U" (loop (dec 152 2) (dec 147 2) 23) "D7L" (loop (dec 152 2) (dec (-147) 2) 23) n1);
      ("P4", series "P4U" (loop (dec 15 1) (dec 11 1) 23) "P4L" (loop (dec 15 1) (dec (-11) 1) 23) n1);
      ("P5", series "P5U" (loop (dec 165 2) (dec 357 3) 23) "P5L" (loop (dec 165 2) (dec (-357) 3) 23) n1);
      ("P61", series "P61U" (loop (dec 11975 4) (dec 111175 5) 2) "P61L" (loop (dec 11975 4) (dec (-111175) 5) 2) (- n1));
      ("P62", series "P62U" (loop (dec 12575 4) (dec 10575 4) 2) "P62L" (loop (dec 12575 4) (dec (-10575) 4) 2) (- n1))]
      (Some MASTU_simple_wall) n1.
  (** The strands of MASTU (machine.py 1390-2602) *)
  Definition d1_upper_r : list T := [
    dec 35275 5; dec 36745015 8; dec 38215014 8; dec 39685005 8; dec 35275 5; dec 35275 5; dec 35275 5; dec 35275 5; dec 35275039 8; dec 36745039 8;
    dec 36745039 8; dec 36745039 8; dec 36745039 8; dec 36745 5; dec 38215002 8; dec 38215002 8; dec 38215002 8; dec 38215002 8; dec 39685014 8;
    dec 39685014 8; dec 39685014 8; dec 39685014 8; dec 39685008 8; dec 41155013 8; dec 41155013 8; dec 41155013 8; dec 41155013 8; dec 4115501 7;
    dec 42625037 8; dec 42625007 8; dec 42625007 8; dec 42625007 8; dec 42625007 8; dec 41155002 8; dec 4262501 7].
  Definition d1_upper_z : list T := [
    dec 160924995 8; dec 160924995 8; dec 160924995 8; dec 160924995 8; dec 159455001 8; dec 157984996 8; dec 15651499 7; dec 155044997 8;
    dec 153574991 8; dec 153574991 8; dec 155044997 8; dec 15651499 7; dec 157984996 8; dec 159455001 8; dec 157984996 8; dec 15651499 7;
    dec 155044997 8; dec 153574991 8; dec 153574991 8; dec 155044997 8; dec 15651499 7; dec 157984996 8; dec 159455001 8; dec 159455001 8;
    dec 157984996 8; dec 15651499 7; dec 155044997 8; dec 153574991 8; dec 153574991 8; dec 155044997 8; dec 15651499 7; dec 157984996 8;
    dec 159455001 8; dec 160924995 8; dec 160924995 8].
  Definition d1_lower_z : list T := map (fun x => x * nofZ (-1)) d1_upper_z.
  Definition d2_upper_r : list T := [
    dec 60125011 8; dec 58655024 8; dec 60125017 8; dec 60125017 8; dec 60125023 8; dec 58655 5; dec 58655 5; dec 57185012 8; dec 57185036 8;
    dec 57185042 8; dec 55715007 8; dec 55715007 8; dec 55715001 8; dec 54245019 8; dec 54245019 8; dec 54245001 8; dec 52775019 8; dec 52775025 8;
    dec 52775025 8; dec 57185012 8; dec 55715013 8; dec 54245007 8; dec 52774996 8].
  Definition d2_upper_z : list T := [
    dec 175705004 8; dec 175705004 8; dec 174234998 8; dec 172765005 8; dec 171294999 8; dec 171294999 8; dec 172765005 8; dec 174234998 8;
    dec 172765005 8; dec 171294999 8; dec 171294999 8; dec 172765005 8; dec 174234998 8; dec 174234998 8; dec 172765005 8; dec 171294999 8;
    dec 171294999 8; dec 172765005 8; dec 174234998 8; dec 175705004 8; dec 175705004 8; dec 175705004 8; dec 175705004 8].
  Definition d2_lower_z : list T := map (fun x => x * nofZ (-1)) d2_upper_z.
  Definition d3_upper_r : list T := [
    dec 82854998 8; dec 8432501 7; dec 84325004 8; dec 84325004 8; dec 82855022 8; dec 82855004 8; dec 8285504 7; dec 81384999 8; dec 81385022 8;
    dec 81385005 8; dec 79915011 8; dec 79915005 8; dec 79915005 8; dec 78445005 8; dec 78444934 8; dec 78445005 8; dec 76975012 8; dec 76975018 8;
    dec 76975018 8; dec 76975006 8; dec 78445035 8; dec 79915041 8; dec 81384987 8].
  Definition d3_upper_z : list T := [
    dec 200405002 8; dec 200405002 8; dec 198935008 8; dec 197465003 8; dec 195995009 8; dec 197465003 8; dec 198935008 8; dec 198935008 8;
    dec 197465003 8; dec 195995009 8; dec 195995009 8; dec 197465003 8; dec 198935008 8; dec 198935008 8; dec 197465003 8; dec 195995009 8;
    dec 195995009 8; dec 197465003 8; dec 198935008 8; dec 200405002 8; dec 200405002 8; dec 200405002 8; dec 200405002 8].
  Definition d3_lower_z : list T := map (fun x => x * nofZ (-1)) d3_upper_z.
  Definition d5_upper_r : list T := [
    dec 190735006 8; dec 192205048 8; dec 192205 5; dec 192205 5; dec 192205 5; dec 192205 5; dec 192205 5; dec 190735018 8; dec 19073503 7;
    dec 19073503 7; dec 19073503 7; dec 19073503 7; dec 190735006 8; dec 189265001 8; dec 189265013 8; dec 189265013 8; dec 189265013 8; dec 189265013 8;
    dec 189265001 8; dec 187794995 8; dec 187795019 8; dec 187795019 8; dec 187795019 8; dec 187795019 8; dec 187795019 8; dec 187795019 8;
    dec 189265037 8].
  Definition d5_upper_z : list T := [
    dec 199409997 8; dec 199409997 8; dec 197940004 8; dec 196469998 8; dec 195000005 8; dec 193529999 8; dec 192060006 8; dec 19059 4; dec 192060006 8;
    dec 193529999 8; dec 195000005 8; dec 196469998 8; dec 197940004 8; dec 197940004 8; dec 196469998 8; dec 195000005 8; dec 193529999 8;
    dec 192060006 8; dec 19059 4; dec 19059 4; dec 192060006 8; dec 193529999 8; dec 195000005 8; dec 196469998 8; dec 197940004 8; dec 199409997 8;
    dec 199409997 8].
  Definition d5_lower_z : list T := map (fun x => x * nofZ (-1)) d5_upper_z.
  Definition d6_upper_r : list T := [
    dec 130704987 8; dec 132175004 8; dec 132175004 8; dec 132174993 8; dec 130705011 8; dec 132174993 8; dec 130704999 8; dec 129235005 8;
    dec 130704999 8; dec 129235005 8; dec 127765 5; dec 127765 5; dec 126295006 8; dec 127765 5; dec 126294994 8; dec 124825013 8; dec 126294994 8;
    dec 124825001 8; dec 124825001 8; dec 124825013 8; dec 126294994 8; dec 127765 5; dec 129234993 8].
  Definition d6_upper_z : list T := [
    dec 144564998 8; dec 144564998 8; dec 146034992 8; dec 147504997 8; dec 148974991 8; dec 148975003 8; dec 147504997 8; dec 146034992 8;
    dec 146035004 8; dec 147504997 8; dec 148975003 8; dec 147504997 8; dec 146034992 8; dec 146034992 8; dec 147504997 8; dec 148974991 8;
    dec 148975003 8; dec 147504997 8; dec 146034992 8; dec 144564998 8; dec 144564998 8; dec 144564998 8; dec 144564998 8].
  Definition d6_lower_z : list T := map (fun x => x * nofZ (-1)) d6_upper_z.
  Definition d7_upper_r : list T := [
    dec 154205 5; dec 155675006 8; dec 155675006 8; dec 155675006 8; dec 154205012 8; dec 155674994 8; dec 154205 5; dec 152735007 8; dec 154204988 8;
    dec 152735007 8; dec 151265013 8; dec 152734995 8; dec 151265001 8; dec 149794996 8; dec 151265001 8; dec 149794996 8; dec 148325002 8;
    dec 148325002 8; dec 148325002 8; dec 148325002 8; dec 149795008 8; dec 151265001 8; dec 152734995 8].
  Definition d7_upper_z : list T := [
    dec 144564998 8; dec 144564998 8; dec 146034992 8; dec 147504997 8; dec 148974991 8; dec 148974991 8; dec 147504997 8; dec 146034992 8;
    dec 146034992 8; dec 147504997 8; dec 148974991 8; dec 148974991 8; dec 147504997 8; dec 146035004 8; dec 146034992 8; dec 147504997 8;
    dec 148974991 8; dec 147504997 8; dec 146035004 8; dec 144564998 8; dec 144564998 8; dec 144564998 8; dec 144564998 8].
  Definition d7_lower_z : list T := map (fun x => x * nofZ (-1)) d7_upper_z.
  Definition dp_upper_r : list T := [
    dec 93285 5; dec 94755 5; dec 93285 5; dec 94755 5; dec 96224999 8; dec 96224999 8; dec 88875002 8; dec 90345001 8; dec 91815001 8; dec 91815001 8;
    dec 90345001 8; dec 88875002 8; dec 96224999 8; dec 94755 5; dec 93285 5; dec 96224999 8; dec 94755 5; dec 93285 5; dec 91815001 8; dec 90345001 8;
    dec 88875002 8; dec 88874996 8; dec 90345001 8; dec 91815001 8].
  Definition dp_upper_z : list T := [
    dec 148634994 8; dec 148634994 8; dec 147165 5; dec 147165 5; dec 148634994 8; dec 147165 5; dec 147165 5; dec 147165 5; dec 147165 5;
    dec 148634994 8; dec 148634994 8; dec 148634994 8; dec 151574993 8; dec 151574993 8; dec 151574993 8; dec 150105 5; dec 150105 5; dec 150105 5;
    dec 151574993 8; dec 151574993 8; dec 151574993 8; dec 150105 5; dec 150105 5; dec 150105 5].
  Definition dp_lower_z : list T := map (fun x => x * nofZ (-1)) dp_upper_z.
  Definition p4_upper_r : list T := [
    dec 143500018 8; dec 153500021 8; dec 151000023 8; dec 148500025 8; dec 146000016 8; dec 143500006 8; dec 143500006 8; dec 146100008 8;
    dec 143500018 8; dec 146100008 8; dec 148700011 8; dec 14610002 7; dec 148700011 8; dec 151300013 8; dec 148700011 8; dec 151300013 8;
    dec 153900015 8; dec 151300013 8; dec 153900003 8; dec 156500018 8; dec 153900015 8; dec 156500006 8; dec 156500006 8].
  Definition p4_upper_z : list T := [
    dec 104014993 8; dec 103714991 8; dec 103714991 8; dec 103714991 8; dec 103714991 8; dec 107814991 8; dec 11161499 7; dec 115414989 8;
    dec 115414989 8; dec 11161499 7; dec 107814991 8; dec 107814991 8; dec 11161499 7; dec 115414989 8; dec 115414989 8; dec 11161499 7; dec 107814991 8;
    dec 107814991 8; dec 11161499 7; dec 115414989 8; dec 115414989 8; dec 11161499 7; dec 107814991 8].
  Definition p4_lower_z : list T := map (fun x => x * nofZ (-1)) p4_upper_z.
  Definition p5_upper_r : list T := [
    dec 158500004 8; dec 161000001 8; dec 163499999 8; dec 165999997 8; dec 168499994 8; dec 158500004 8; dec 158500004 8; dec 158500004 8;
    dec 163499999 8; dec 163499999 8; dec 163499999 8; dec 165999997 8; dec 165999997 8; dec 165999997 8; dec 168499994 8; dec 168500006 8;
    dec 168500006 8; dec 171500003 8; dec 171500003 8; dec 171500003 8; dec 171500003 8; dec 16099776 7; dec 160997999 8].
  Definition p5_upper_z : list T := [
    dec 41065004 8; dec 41065004 8; dec 41065004 8; dec 41065004 8; dec 41065004 8; dec 37165004 8; dec 33265004 8; dec 29365003 8; dec 37165004 8;
    dec 33265004 8; dec 29365003 8; dec 29365003 8; dec 33262005 8; dec 37165004 8; dec 37165004 8; dec 33265004 8; dec 29365003 8; dec 29365006 8;
    dec 33265004 8; dec 37165004 8; dec 41065004 8; dec 31147972 8; dec 35528255 8].
  Definition p5_lower_z : list T := map (fun x => x * nofZ (-1)) p5_upper_z.
  Definition p6_upper_r : list T := [
    dec 12887001 7; dec 12887001 7; dec 130900013 8; dec 12887001 7; dec 130900013 8; dec 133414996 8; dec 133414996 8; dec 135444999 8; dec 133414996 8;
    dec 135444999 8].
  Definition p6_upper_z : list T := [
    dec 99616498 8; dec 97586501 8; dec 95556498 8; dec 95556498 8; dec 97586501 8; dec 931265 6; dec 91096503 8; dec 89066499 8; dec 89066499 8;
    dec 91096503 8].
  Definition p6_lower_z : list T := map (fun x => x * nofZ (-1)) p6_upper_z.
  Definition px_upper_r : list T := [
    dec 24849965 8; dec 24849975 8; dec 24849974 8; dec 2344998 7; dec 24849974 8; dec 24849974 8; dec 24849972 8; dec 24849972 8; dec 24849972 8;
    dec 24849971 8; dec 24849971 8; dec 24849971 8; dec 24849969 8; dec 24849969 8; dec 24849969 8; dec 24849968 8; dec 24849968 8; dec 24849968 8;
    dec 24849966 8; dec 24849966 8; dec 24849966 8; dec 24849965 8; dec 23449969 8; dec 23449969 8; dec 23449971 8; dec 23449971 8; dec 23449971 8;
    dec 23449971 8; dec 23449972 8; dec 23449972 8; dec 23449974 8; dec 23449974 8; dec 23449974 8; dec 23449975 8; dec 23449975 8; dec 23449977 8;
    dec 23449977 8; dec 23449977 8; dec 23449978 8; dec 23449978 8; dec 2344998 7; dec 2344998 7].
  Definition px_upper_z : list T := [
    dec 141640627 8; dec 103640544 8; dec 10554055 7; dec 103164983 8; dec 107440555 8; dec 10934056 7; dec 111240554 8; dec 113140559 8;
    dec 115040565 8; dec 11694057 7; dec 118840575 8; dec 120740581 8; dec 122640586 8; dec 124540591 8; dec 126440585 8; dec 12834059 7;
    dec 130240595 8; dec 132140601 8; dec 134040606 8; dec 135940611 8; dec 137840617 8; dec 139740622 8; dec 141164911 8; dec 139264905 8;
    dec 137364912 8; dec 135464919 8; dec 133564925 8; dec 131664932 8; dec 129764926 8; dec 127864933 8; dec 12596494 7; dec 124064946 8;
    dec 122164953 8; dec 120264947 8; dec 118364954 8; dec 116464961 8; dec 114564967 8; dec 112664974 8; dec 110764968 8; dec 108864975 8;
    dec 106964982 8; dec 105064988 8].
  Definition px_lower_z : list T := map (fun x => x * nofZ (-1)) px_upper_z.
  Definition pc_r : list T := [
    dec 5950115 8; dec 5950115 8; dec 5950116 8; dec 5950116 8; dec 5950116 8; dec 5950121 8; dec 5950117 8; dec 5950117 8; dec 5950118 8; dec 5950122 8;
    dec 5950119 8; dec 5950119 8; dec 5950119 8; dec 5950119 8; dec 5950123 8; dec 595012 7; dec 595012 7; dec 595012 7; dec 595012 7; dec 595012 7;
    dec 595012 7; dec 595012 7; dec 595012 7; dec 595012 7; dec 595012 7; dec 595012 7; dec 595012 7; dec 595012 7; dec 5950124 8; dec 5950119 8;
    dec 5950119 8; dec 5950119 8; dec 5950119 8; dec 5950119 8; dec 5950122 8; dec 5950122 8; dec 5950118 8; dec 5950117 8; dec 5950117 8; dec 5950117 8;
    dec 5950116 8; dec 5950116 8; dec 5950115 8; dec 5950115 8; dec 5950114 8; dec 5950114 8; dec 5950113 8; dec 5950113 8; dec 5950112 8; dec 5950112 8;
    dec 5950111 8; dec 595011 7; dec 5950113 8; dec 5950109 8; dec 5950108 8; dec 5950111 8; dec 595011 7; dec 5950109 8; dec 5950109 8; dec 5950107 8;
    dec 595009 7; dec 5950106 8; dec 5950104 8; dec 5950104 8; dec 5950103 8; dec 5950105 8; dec 5950146 8; dec 5950177 8; dec 5950198 8; dec 5950211 8;
    dec 5950096 8; dec 7150049 8; dec 715005 7; dec 7150051 8; dec 7150052 8; dec 7150053 8; dec 7150054 8; dec 7150055 8; dec 7150055 8; dec 7150057 8;
    dec 7150058 8; dec 7150058 8; dec 7150059 8; dec 715006 7; dec 7150061 8; dec 7150061 8; dec 7150062 8; dec 7150063 8; dec 7150064 8; dec 7150064 8;
    dec 7150065 8; dec 7150066 8; dec 7150067 8; dec 7150067 8; dec 7150067 8; dec 7150068 8; dec 7150069 8; dec 715007 7; dec 715007 7; dec 715007 7;
    dec 7150071 8; dec 7150071 8; dec 7150072 8; dec 7150066 8; dec 7150073 8; dec 7150073 8; dec 7150073 8; dec 7150073 8; dec 7150074 8; dec 7150074 8;
    dec 7150085 8; dec 7150132 8; dec 7150154 8; dec 7150155 8; dec 7150079 8; dec 7150076 8; dec 7150076 8; dec 7150076 8; dec 7150076 8; dec 7150076 8;
    dec 7150076 8; dec 7150076 8; dec 7150073 8; dec 7150077 8; dec 7150077 8; dec 7150077 8; dec 7150077 8; dec 7150077 8; dec 7150077 8; dec 7150076 8;
    dec 7150076 8; dec 7150076 8; dec 7150076 8; dec 7150076 8; dec 7150076 8; dec 7150076 8; dec 7150076 8; dec 7150076 8; dec 7150076 8; dec 7150075 8;
    dec 7150075 8; dec 7150074 8; dec 715007 7; dec 7150044 8; dec 7150045 8; dec 7150047 8; dec 7150047 8; dec 7150049 8; dec 7150128 8; dec 7150129 8;
    dec 7150111 8; dec 7150067 8; dec 7150006 8; dec 7150054 8; dec 7150055 8; dec 7150055 8; dec 7150056 8; dec 7150057 8; dec 7150058 8; dec 7150058 8;
    dec 715006 7; dec 7150061 8; dec 7150061 8; dec 7150062 8; dec 7150062 8; dec 7150063 8; dec 7150064 8; dec 7150064 8; dec 7150065 8; dec 7150065 8;
    dec 7150066 8; dec 7150067 8; dec 7150067 8; dec 7150067 8; dec 7150068 8; dec 7150068 8; dec 7150069 8; dec 7150069 8; dec 715007 7; dec 715007 7;
    dec 715007 7; dec 715007 7; dec 715007 7; dec 7150071 8; dec 7150071 8; dec 7150071 8; dec 7150072 8; dec 7150072 8; dec 7150072 8; dec 7150072 8;
    dec 7150072 8; dec 7150072 8; dec 7150073 8; dec 7150073 8; dec 7150073 8; dec 7150073 8; dec 7150073 8; dec 7150073 8; dec 7150073 8; dec 7150073 8;
    dec 7150073 8; dec 7150076 8; dec 7150076 8; dec 7150076 8; dec 7150076 8; dec 7150076 8; dec 7150076 8; dec 7150076 8; dec 7150076 8; dec 7150075 8;
    dec 7150075 8; dec 7150075 8; dec 7150074 8; dec 59501 6; dec 5950099 8; dec 59501 6; dec 5950118 8; dec 5950101 8; dec 5950101 8; dec 5950101 8;
    dec 5950102 8; dec 5950102 8; dec 5950102 8; dec 5950103 8; dec 5950122 8; dec 5950122 8; dec 5950122 8; dec 5950104 8; dec 5950104 8; dec 5950104 8;
    dec 5950104 8; dec 5950104 8; dec 5950104 8; dec 5950104 8; dec 5950104 8; dec 5950104 8; dec 595013 7; dec 5950121 8; dec 5950123 8; dec 5950116 8;
    dec 5950124 8; dec 5950121 8; dec 5950119 8; dec 5950121 8; dec 5950122 8; dec 5950122 8; dec 5950121 8; dec 595012 7; dec 5950121 8; dec 5950121 8;
    dec 595012 7; dec 5950101 8; dec 5950119 8; dec 5950119 8; dec 5950118 8; dec 5950118 8; dec 5950117 8; dec 5950117 8; dec 5950116 8; dec 5950116 8;
    dec 5950119 8; dec 5950115 8; dec 5950114 8; dec 5950114 8; dec 5950113 8; dec 5950112 8; dec 5950112 8; dec 5950111 8; dec 595011 7; dec 5950109 8;
    dec 5950108 8; dec 5950107 8; dec 5950107 8; dec 5950106 8; dec 5950105 8; dec 5950104 8; dec 5950103 8; dec 5950102 8; dec 5950101 8; dec 59501 6;
    dec 5950099 8; dec 5950078 8; dec 5950077 8; dec 5950096 8].
  Definition pc_z : list T := [
    dec (-781521082) 9; dec (-759520829) 9; dec (-737520635) 9; dec (-715520382) 9; dec (-693520188) 9; dec (-671519935) 9; dec (-649519742) 9;
    dec (-627519488) 9; dec (-605519295) 9; dec (-583519042) 9; dec (-561518848) 9; dec (-539518654) 9; dec (-517518401) 9; dec (-495518208) 9;
    dec (-473517984) 9; dec (-451517761) 9; dec (-429517567) 9; dec (-407517344) 9; dec (-38551712) 8; dec (-363516897) 9; dec (-341516674) 9;
    dec (-31951645) 8; dec (-297516227) 9; dec (-275516003) 9; dec (-25351578) 8; dec (-231515557) 9; dec (-209515333) 9; dec (-18751511) 8;
    dec (-165514901) 9; dec (-143514678) 9; dec (-121514454) 9; dec (-995142311) 10; dec (-775140151) 10; dec (-555137955) 10; dec (-335135758) 10;
    dec (-115133552) 10; dec 104868645 10; dec 324870832 10; dec 544873066 10; dec 764875263 10; dec 984877497 10; dec 120487973 9; dec 142488196 9;
    dec 164488405 9; dec 186488628 9; dec 208488852 9; dec 230489075 9; dec 252489269 9; dec 274489492 9; dec 296489716 9; dec 318489939 9;
    dec 340490162 9; dec 362490386 9; dec 384490609 9; dec 406490862 9; dec 428490698 9; dec 450491309 9; dec 472491503 9; dec 494491905 9;
    dec 516492069 9; dec 538492322 9; dec 560492516 9; dec 582492828 9; dec 604492962 9; dec 626493216 9; dec 648493409 9; dec 670493662 9;
    dec 692494035 9; dec 714494169 9; dec 736494422 9; dec 758494616 9; dec 758488476 9; dec 73648864 8; dec 714488804 9; dec 692489028 9;
    dec 670489192 9; dec 648489356 9; dec 62648952 8; dec 604489744 9; dec 582489908 9; dec 560490072 9; dec 538490295 9; dec 516490459 9;
    dec 494490594 9; dec 472490788 9; dec 450490981 9; dec 428491175 9; dec 406491339 9; dec 384491533 9; dec 362491727 9; dec 340491891 9;
    dec 318492085 9; dec 296492279 9; dec 274492443 9; dec 252492636 9; dec 23049283 8; dec 208493009 9; dec 186493203 9; dec 164493382 9;
    dec 142493561 9; dec 12049374 8; dec 984939337 10; dec 764944404 10; dec 544943213 10; dec 324945636 10; dec 10494695 9; dec (-115051102) 10;
    dec (-335049182) 10; dec (-555047244) 10; dec (-775045305) 10; dec (-995043367) 10; dec (-12150415) 8; dec (-143503949) 9; dec (-165503755) 9;
    dec (-187503561) 9; dec (-209503368) 9; dec (-231503174) 9; dec (-253502995) 9; dec (-275502801) 9; dec (-297502607) 9; dec (-319502413) 9;
    dec (-341502219) 9; dec (-363502026) 9; dec (-385501832) 9; dec (-407501638) 9; dec 395501614 9; dec (-429501444) 9; dec (-45150125) 8;
    dec (-473501056) 9; dec (-495500863) 9; dec (-517500639) 9; dec (-539500475) 9; dec (-561500251) 9; dec (-583500087) 9; dec (-605499864) 9;
    dec (-6274997) 7; dec (-649499476) 9; dec (-671499312) 9; dec (-693499088) 9; dec (-715498924) 9; dec (-737498701) 9; dec (-759498537) 9;
    dec (-781498313) 9; dec 769502759 9; dec 747502983 9; dec 725503147 9; dec 70350337 8; dec 681503534 9; dec 659503758 9; dec 637503922 9;
    dec 615504146 9; dec 59350431 8; dec 571504533 9; dec 549504697 9; dec 527504921 9; dec 505505085 9; dec 483505279 9; dec 461505353 9;
    dec 439505666 9; dec 417505413 9; dec 373506218 9; dec 351506412 9; dec 329506606 9; dec 30750677 8; dec 285506964 9; dec 263507158 9;
    dec 241507336 9; dec 21950753 8; dec 197507709 9; dec 175507888 9; dec 153508082 9; dec 131508261 9; dec 10950844 8; dec 875086263 10;
    dec 655088127 10; dec 435089879 10; dec 215091743 10; dec (-490644481) 12; dec (-224904604) 10; dec (-444902778) 10; dec (-664900914) 10;
    dec (-884899125) 10; dec (-110489726) 9; dec (-132489547) 9; dec (-154489353) 9; dec (-176489174) 9; dec (-198488995) 9; dec (-220488816) 9;
    dec (-242488623) 9; dec (-264488459) 9; dec (-286488265) 9; dec (-308488101) 9; dec (-330487907) 9; dec (-352487713) 9; dec (-374487549) 9;
    dec (-396487355) 9; dec (-418487161) 9; dec (-440486997) 9; dec (-462486804) 9; dec (-484486639) 9; dec (-506486416) 9; dec (-528486252) 9;
    dec (-550486028) 9; dec (-572485864) 9; dec (-5944857) 7; dec (-616485476) 9; dec (-638485312) 9; dec (-660485148) 9; dec (-682484925) 9;
    dec (-704484761) 9; dec (-726484597) 9; dec (-748484373) 9; dec (-770484209) 9; dec (-726499677) 9; dec (-74849993) 8; dec (-704499483) 9;
    dec (-770499945) 9; dec (-68249923) 8; dec (-660498977) 9; dec (-638498724) 9; dec (-61649853) 8; dec (-594498277) 9; dec (-572498024) 9;
    dec (-55049783) 8; dec (-528497398) 9; dec (-506497145) 9; dec (-484496951) 9; dec (-462496907) 9; dec (-440496653) 9; dec (-41849643) 8;
    dec (-396496207) 9; dec (-374495953) 9; dec (-35249573) 8; dec (-330495477) 9; dec (-308495253) 9; dec (-28649503) 8; dec (-263993531) 9;
    dec (-242494494) 9; dec (-220494315) 9; dec (-198494136) 9; dec (-176493689) 9; dec (-154493496) 9; dec (-132493302) 9; dec (-110493094) 9;
    dec (-884926915) 10; dec (-664924607) 10; dec (-444922261) 10; dec (-224919878) 10; dec (-491753221) 12; dec 215084739 10; dec 435086973 10;
    dec 655087605 10; dec 109509401 9; dec 131509617 9; dec 15350984 8; dec 175510064 9; dec 197510287 9; dec 219510511 9; dec 241510719 9;
    dec 263510942 9; dec 875091851 10; dec 285511166 9; dec 307511151 9; dec 329511374 9; dec 351511598 9; dec 37351203 8; dec 395512253 9;
    dec 417512476 9; dec 439512491 9; dec 461512923 9; dec 483513147 9; dec 505513191 9; dec 527513623 9; dec 549513638 9; dec 571513832 9;
    dec 593514264 9; dec 615514517 9; dec 63751471 8; dec 659514725 9; dec 681514919 9; dec 703515172 9; dec 725515604 9; dec 747515619 9; dec 769516051 9].
  (** MASTU (machine.py 1386-2835) *)
  Definition MASTU_rwall : list T := [
    dec 16 1; dec 12503 4; dec 13483 4; dec 147 2; dec 147 2; dec 145 2; dec 145 2; dec 13214 4; dec 11904 4; dec 89296 5; dec 86938 5; dec 83981 5;
    dec 82229 5; dec 81974 5; dec 81974 5; dec 82734 5; dec 8548 4; dec 89017 5; dec 91974 5; dec 94066 5; dec 1555 3; dec 185 2; dec 2 0; dec 2 0;
    dec 2 0; dec 2 0; dec 13188 4; dec 17689 4; dec 17301 4; dec 135 2; dec 109 2; dec 109 2; dec 90576 5; dec 87889 5; dec 87889 5; dec 90717 5;
    dec 53948 5; dec 5112 4; dec 50553 5; dec 53594 5; dec 5074 4; dec 4974 4; dec 5074 4; dec 4788 4; dec 4688 4; dec 4788 4; dec 333 3; dec 333 3;
    dec 275 3; dec 334 3; dec 261 3; dec 261 3; dec 244 3; dec 261 3; dec 261 3; dec 244 3; dec 261 3; dec 261 3].
  Definition MASTU_zwall : list T := [
    dec 1 0; dec 1 0; dec 86 2; dec 86 2; dec 81 2; dec 81 2; dec 82 2; dec 82 2; dec 1007 3; dec 1304 3; dec 13312 4; dec 13826 4; dec 14451 4;
    dec 14812 4; dec 14936 4; dec 15318 4; dec 15696 4; dec 15891 4; dec 15936 4; dec 15936 4; dec 1567 3; dec 108 2; dec 108 2; dec 17 1; dec 2035 3;
    dec 2169 3; dec 2169 3; dec 17189 4; dec 168 2; dec 206 2; dec 206 2; dec 206 2; dec 18786 4; dec 19055 4; dec 19055 4; dec 18772 4; dec 15095 4;
    dec 15378 4; dec 15321 4; dec 15017 4; dec 14738 4; dec 14838 4; dec 14738 4; dec 14458 4; dec 14558 4; dec 14458 4; dec 1303 3; dec 11 1; dec 11 1;
    dec 11 1; dec 502 3; dec 348 3; dec 348 3; dec 348 3; dec 146 3; dec 146 3; dec 146 3; dec 0 0].
  Definition MASTU_wall : list (T * T) := combine (MASTU_rwall ++ rev MASTU_rwall) (MASTU_zwall ++ map nopp (rev MASTU_zwall)).
  Definition MASTU : result tokamak :=
    let* pc := strands pc_r pc_z in
    let* pxu := strands px_upper_r px_upper_z in
    let* pxl := strands px_upper_r px_lower_z in
    let* d1u := strands d1_upper_r d1_upper_z in
    let* d1l := strands d1_upper_r d1_lower_z in
    let* d2u := strands d2_upper_r d2_upper_z in
    let* d2l := strands d2_upper_r d2_lower_z in
    let* d3u := strands d3_upper_r d3_upper_z in
    let* d3l := strands d3_upper_r d3_lower_z in
    let* dpu := strands dp_upper_r dp_upper_z in
    let* dpl := strands dp_upper_r dp_lower_z in
    let* d5u := strands d5_upper_r d5_upper_z in
    let* d5l := strands d5_upper_r d5_lower_z in
    let* d6u := strands d6_upper_r d6_upper_z in
    let* d6l := strands d6_upper_r d6_lower_z in
    let* d7u := strands d7_upper_r d7_upper_z in
    let* d7l := strands d7_upper_r d7_lower_z in
    let* p4u := strands p4_upper_r p4_upper_z in
    let* p4l := strands p4_upper_r p4_lower_z in
    let* p5u := strands p5_upper_r p5_upper_z in
    let* p5l := strands p5_upper_r p5_lower_z in
    let* p6u := strands p6_upper_r p6_upper_z in
    let* p6l := strands p6_upper_r p6_lower_z in
    Ok (mktokamak [
      ("Solenoid", MSolenoid (mksol (dec 19475 5) (dec (-1581) 3) (dec 1581 3) 324 n0 false));
      ("Pc", MCoil pc);
      ("Px", series "PxU" pxu "PxL" pxl n1);
      ("D1", series "D1U" d1u "D1L" d1l n1);
      ("D2", series "D2U" d2u "D2L" d2l n1);
      ("D3", series "D3U" d3u "D3L" d3l n1);
      ("Dp", series "DPU" dpu "DPL" dpl n1);
      ("D5", series "D5U" d5u "D5L" d5l n1);
      ("D6", series "D6U" d6u "D6L" d6l n1);
      ("D7", series "D7U" d7u "D7L" d7l n1);
      ("P4", series "P4U" p4u "P4L" p4l n1);
      ("P5", series "P5U" p5u "P5L" p5l n1);
      ("P6", series "P6U" p6u "P6L" p6l (- n1))]
      (Some MASTU_wall) n1).
End Machines.
Arguments tokamak T : clear implicits.
