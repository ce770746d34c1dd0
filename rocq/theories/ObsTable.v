(** * The station table of palObs.c:186-908, generated by tools/obs_table.py. *)
From Coq Require Import ZArith List String.
From Verif Require Import Num.
Import ListNotations.
Local Open Scope string_scope.

(** the macros WEST, EAST, NORTH, SOUTH of palObs.c:168-171 and their arguments *)
Inductive angle : Set := West (d m : Z) (s : Dec) | East (d m : Z) (s : Dec) | North (d m : Z) (s : Dec) | South (d m : Z) (s : Dec).
(** struct telData, palObs.c:173-179 *)
Record tel : Set := Tel { t_w : angle; t_p : angle; t_h : Dec; t_short : string; t_long : string }.

Definition telData : list tel := [
  (* palObs.c:188 *) Tel (East 149 3 57.91%dec) (South 31 16 37.34%dec) (1164)%dec "AAT" "Anglo-Australian 3.9m Telescope";
  (* palObs.c:196 *) Tel (West 17 52 53.9%dec) (North 28 45 38.1%dec) (2332)%dec "LPO4.2" "William Herschel 4.2m Telescope";
  (* palObs.c:204 *) Tel (West 17 52 39.5%dec) (North 28 45 43.2%dec) (2336)%dec "LPO2.5" "Isaac Newton 2.5m Telescope";
  (* palObs.c:212 *) Tel (West 17 52 41.2%dec) (North 28 45 39.9%dec) (2364)%dec "LPO1" "Jacobus Kapteyn 1m Telescope";
  (* palObs.c:220 *) Tel (West 121 38 13.689%dec) (North 37 20 34.931%dec) (1286)%dec "LICK120" "Lick 120 inch";
  (* palObs.c:228 *) Tel (West 110 53 4.4%dec) (North 31 41 19.6%dec) (2608)%dec "MMT" "MMT 6.5m, Mt Hopkins";
  (* palObs.c:236 *) Tel (West 123 25 1.18%dec) (North 48 31 11.9%dec) (238)%dec "DAO72" "DAO Victoria BC 1.85 metre";
  (* palObs.c:244 *) Tel (West 70 42 9.0%dec) (South 29 0 11.0%dec) (2280)%dec "DUPONT" "Du Pont 2.5m Telescope, Las Campanas";
  (* palObs.c:252 *) Tel (West 110 52 39.00%dec) (North 31 40 51.4%dec) (2344)%dec "MTHOP1.5" "Mt Hopkins 1.5 metre";
  (* palObs.c:260 *) Tel (East 149 0 27.59%dec) (South 35 19 14.3%dec) (767)%dec "STROMLO74" "Mount Stromlo 74 inch";
  (* palObs.c:268 *) Tel (East 149 3 40.3%dec) (South 31 16 24.1%dec) (1149)%dec "ANU2.3" "Siding Spring 2.3 metre";
  (* palObs.c:276 *) Tel (West 79 50 9.61%dec) (North 38 26 15.4%dec) (881)%dec "GBVA140" "Greenbank 140 foot";
  (* palObs.c:284 *) Tel (West 70 48 53.6%dec) (South 30 9 57.8%dec) (2235)%dec "TOLOLO4M" "Cerro Tololo 4 metre";
  (* palObs.c:292 *) Tel (West 70 48 54.5%dec) (South 30 9 56.3%dec) (2225)%dec "TOLOLO1.5M" "Cerro Tololo 1.5 metre";
  (* palObs.c:300 *) Tel (East 148 58 48.20%dec) (South 35 24 14.3%dec) (670)%dec "TIDBINBLA" "Tidbinbilla 64 metre";
  (* palObs.c:308 *) Tel (East 26 24 18.0%dec) (South 29 2 18.0%dec) (1387)%dec "BLOEMF" "Bloemfontein 1.52 metre";
  (* palObs.c:316 *) Tel (West 64 32 48.0%dec) (South 31 35 53.0%dec) (1250)%dec "BOSQALEGRE" "Bosque Alegre 1.54 metre";
  (* palObs.c:324 *) Tel (West 111 44 23.6%dec) (North 35 11 2.5%dec) (2316)%dec "FLAGSTF61" "USNO 61 inch astrograph, Flagstaff";
  (* palObs.c:332 *) Tel (West 111 32 9.3%dec) (North 35 5 48.6%dec) (2198)%dec "LOWELL72" "Perkins 72 inch, Lowell";
  (* palObs.c:340 *) Tel (West 71 33 29.32%dec) (North 42 30 19.0%dec) (185)%dec "HARVARD" "Harvard College Observatory 1.55m";
  (* palObs.c:348 *) Tel (East 133 35 47.29%dec) (North 34 34 26.1%dec) (372)%dec "OKAYAMA" "Okayama 1.88 metre";
  (* palObs.c:356 *) Tel (West 111 35 57.61%dec) (North 31 57 50.3%dec) (2120)%dec "KPNO158" "Kitt Peak 158 inch";
  (* palObs.c:364 *) Tel (West 111 35 58.24%dec) (North 31 57 46.9%dec) (2071)%dec "KPNO90" "Kitt Peak 90 inch";
  (* palObs.c:372 *) Tel (West 111 35 51.56%dec) (North 31 57 29.2%dec) (2096)%dec "KPNO84" "Kitt Peak 84 inch";
  (* palObs.c:380 *) Tel (West 111 36 51.12%dec) (North 31 57 12.1%dec) (1939)%dec "KPNO36FT" "Kitt Peak 36 foot";
  (* palObs.c:388 *) Tel (East 31 49 30.0%dec) (North 29 55 54.0%dec) (476)%dec "KOTTAMIA" "Kottamia 74 inch";
  (* palObs.c:396 *) Tel (West 70 43 36.0%dec) (South 29 15 36.0%dec) (2428)%dec "ESO3.6" "ESO 3.6 metre";
  (* palObs.c:405 *) Tel (West 155 28 9.96%dec) (North 19 49 22.77%dec) (4213.6)%dec "MAUNAK88" "Mauna Kea 88 inch";
  (* palObs.c:413 *) Tel (West 155 28 13.18%dec) (North 19 49 20.75%dec) (4198.5)%dec "UKIRT" "UK Infra Red Telescope";
  (* palObs.c:421 *) Tel (West 71 9 9.7%dec) (North 45 27 20.6%dec) (1114)%dec "QUEBEC1.6" "Quebec 1.6 metre";
  (* palObs.c:429 *) Tel (East 11 34 15.0%dec) (North 45 50 48.0%dec) (1365)%dec "MTEKAR" "Mt Ekar 1.82 metre";
  (* palObs.c:437 *) Tel (West 110 42 16.9%dec) (North 32 26 33.9%dec) (2790)%dec "MTLEMMON60" "Mt Lemmon 60 inch";
  (* palObs.c:445 *) Tel (West 104 1 17.60%dec) (North 30 40 17.7%dec) (2075)%dec "MCDONLD2.7" "McDonald 2.7 metre";
  (* palObs.c:453 *) Tel (West 104 1 20.10%dec) (North 30 40 17.7%dec) (2075)%dec "MCDONLD2.1" "McDonald 2.1 metre";
  (* palObs.c:461 *) Tel (West 116 51 50.0%dec) (North 33 21 22.0%dec) (1706)%dec "PALOMAR200" "Palomar 200 inch";
  (* palObs.c:469 *) Tel (West 116 51 31.0%dec) (North 33 20 56.0%dec) (1706)%dec "PALOMAR60" "Palomar 60 inch";
  (* palObs.c:477 *) Tel (West 79 25 20.0%dec) (North 43 51 46.0%dec) (244)%dec "DUNLAP74" "David Dunlap 74 inch";
  (* palObs.c:485 *) Tel (East 5 42 46.75%dec) (North 43 55 53.3%dec) (665)%dec "HPROV1.93" "Haute Provence 1.93 metre";
  (* palObs.c:493 *) Tel (East 5 42 43.82%dec) (North 43 56 0.2%dec) (667)%dec "HPROV1.52" "Haute Provence 1.52 metre";
  (* palObs.c:501 *) Tel (West 115 27 47.0%dec) (North 31 2 38.0%dec) (2830)%dec "SANPM83" "San Pedro Martir 83 inch";
  (* palObs.c:509 *) Tel (East 20 48 44.3%dec) (South 32 22 43.4%dec) (1771)%dec "SAAO74" "Sutherland 74 inch";
  (* palObs.c:517 *) Tel (East 11 42 45.0%dec) (North 50 58 51.0%dec) (331)%dec "TAUTNBG" "Tautenburg 2 metre";
  (* palObs.c:525 *) Tel (West 110 43 55.1%dec) (North 32 25 0.7%dec) (2510)%dec "CATALINA61" "Catalina 61 inch";
  (* palObs.c:533 *) Tel (West 111 35 58.24%dec) (North 31 57 46.9%dec) (2071)%dec "STEWARD90" "Steward 90 inch";
  (* palObs.c:541 *) Tel (East 41 26 30.0%dec) (North 43 39 12.0%dec) (2100)%dec "USSR6" "USSR 6 metre";
  (* palObs.c:549 *) Tel (West 66 45 11.1%dec) (North 18 20 36.6%dec) (496)%dec "ARECIBO" "Arecibo 1000 foot";
  (* palObs.c:557 *) Tel (East 0 2 37.23%dec) (North 52 10 12.2%dec) (17)%dec "CAMB5KM" "Cambridge 5km";
  (* palObs.c:565 *) Tel (East 0 2 21.64%dec) (North 52 9 47.3%dec) (17)%dec "CAMB1MILE" "Cambridge 1 mile";
  (* palObs.c:573 *) Tel (East 6 53 1.5%dec) (North 50 31 28.6%dec) (366)%dec "EFFELSBERG" "Effelsberg 100 metre";
  (* palObs.c:581 *) Tel (West 79 50 56.36%dec) (North 38 25 46.3%dec) (894)%dec "(R.I.P.)" "Greenbank 300 foot";
  (* palObs.c:589 *) Tel (West 2 18 25.0%dec) (North 53 14 10.5%dec) (78)%dec "JODRELL1" "Jodrell Bank 250 foot";
  (* palObs.c:598 *) Tel (East 148 15 44.3591%dec) (South 32 59 59.8657%dec) (391.79)%dec "PARKES" "Parkes 64 metre";
  (* palObs.c:606 *) Tel (West 107 37 3.82%dec) (North 34 4 43.5%dec) (2124)%dec "VLA" "Very Large Array";
  (* palObs.c:614 *) Tel (West 79 16 23.0%dec) (North 38 31 14.0%dec) (705)%dec "SUGARGROVE" "Sugar Grove 150 foot";
  (* palObs.c:622 *) Tel (East 41 35 25.5%dec) (North 43 49 32.0%dec) (973)%dec "USSR600" "USSR 600 foot";
  (* palObs.c:630 *) Tel (East 138 29 12.0%dec) (North 35 56 19.0%dec) (1350)%dec "NOBEYAMA" "Nobeyama 45 metre";
  (* palObs.c:639 *) Tel (West 155 28 37.30%dec) (North 19 49 22.22%dec) (4124.75)%dec "JCMT" "JCMT 15 metre";
  (* palObs.c:647 *) Tel (West 70 43 7.0%dec) (South 29 15 30.0%dec) (2377)%dec "ESONTT" "ESO 3.5 metre NTT";
  (* palObs.c:655 *) Tel (West 2 48 52.5%dec) (North 56 20 12.0%dec) (30)%dec "ST.ANDREWS" "St Andrews";
  (* palObs.c:663 *) Tel (West 105 49 11.56%dec) (North 32 46 48.96%dec) (2809)%dec "APO3.5" "Apache Point 3.5m";
  (* palObs.c:672 *) Tel (West 155 28 28.99%dec) (North 19 49 33.41%dec) (4160)%dec "KECK1" "Keck 10m Telescope #1";
  (* palObs.c:680 *) Tel (East 11 42 45.0%dec) (North 50 58 51.0%dec) (331)%dec "TAUTSCHM" "Tautenberg 1.34 metre Schmidt";
  (* palObs.c:688 *) Tel (West 116 51 32.0%dec) (North 33 21 26.0%dec) (1706)%dec "PALOMAR48" "Palomar 48-inch Schmidt";
  (* palObs.c:696 *) Tel (East 149 4 12.8%dec) (South 31 16 27.8%dec) (1145)%dec "UKST" "UK 1.2 metre Schmidt, Siding Spring";
  (* palObs.c:704 *) Tel (East 137 37 42.2%dec) (North 35 47 38.7%dec) (1130)%dec "KISO" "Kiso 1.05 metre Schmidt, Japan";
  (* palObs.c:712 *) Tel (West 70 43 46.5%dec) (South 29 15 25.8%dec) (2347)%dec "ESOSCHM" "ESO 1 metre Schmidt, La Silla";
  (* palObs.c:721 *) Tel (East 149 33 0.500%dec) (South 30 18 46.385%dec) (236.9)%dec "ATCA" "Australia Telescope Compact Array";
  (* palObs.c:730 *) Tel (East 149 5 58.732%dec) (South 31 16 4.451%dec) (850)%dec "MOPRA" "ATNF Mopra Observatory";
  (* palObs.c:739 *) Tel (West 155 28 33.67%dec) (North 19 49 31.81%dec) (4163)%dec "SUBARU" "Subaru 8m telescope";
  (* palObs.c:748 *) Tel (West 155 28 7.95%dec) (North 19 49 30.91%dec) (4204.1)%dec "CFHT" "Canada-France-Hawaii 3.6m Telescope";
  (* palObs.c:757 *) Tel (West 155 28 27.24%dec) (North 19 49 35.62%dec) (4159.6)%dec "KECK2" "Keck 10m Telescope #2";
  (* palObs.c:766 *) Tel (West 155 28 8.57%dec) (North 19 49 25.69%dec) (4213.4)%dec "GEMININ" "Gemini North 8-m telescope";
  (* palObs.c:775 *) Tel (West 72 20 42.0%dec) (North 42 23 30.0%dec) (314)%dec "FCRAO" "Five College Radio Astronomy Obs";
  (* palObs.c:784 *) Tel (West 155 28 19.20%dec) (North 19 49 34.39%dec) (4168.1)%dec "IRTF" "NASA IR Telescope Facility, Mauna Kea";
  (* palObs.c:793 *) Tel (West 155 28 31.79%dec) (North 19 49 20.78%dec) (4080)%dec "CSO" "Caltech Sub-mm Observatory, Mauna Kea";
  (* palObs.c:802 *) Tel (West 70 24 11.642%dec) (South 24 37 33.117%dec) (2635.43)%dec "VLT1" "ESO VLT, Paranal, Chile: UT1";
  (* palObs.c:811 *) Tel (West 70 24 10.855%dec) (South 24 37 31.465%dec) (2635.43)%dec "VLT2" "ESO VLT, Paranal, Chile: UT2";
  (* palObs.c:820 *) Tel (West 70 24 9.896%dec) (South 24 37 30.300%dec) (2635.43)%dec "VLT3" "ESO VLT, Paranal, Chile: UT3";
  (* palObs.c:829 *) Tel (West 70 24 8.000%dec) (South 24 37 31.000%dec) (2635.43)%dec "VLT4" "ESO VLT, Paranal, Chile: UT4";
  (* palObs.c:838 *) Tel (West 70 44 11.5%dec) (South 30 14 26.7%dec) (2738)%dec "GEMINIS" "Gemini South 8-m telescope";
  (* palObs.c:847 *) Tel (East 7 47 3.48%dec) (North 45 58 59.772%dec) (3141)%dec "KOSMA3M" "KOSMA 3m telescope, Gornergrat";
  (* palObs.c:856 *) Tel (West 70 41 31.9%dec) (South 29 0 51.7%dec) (2408)%dec "MAGELLAN1" "Magellan 1, 6.5m, Las Campanas";
  (* palObs.c:865 *) Tel (West 70 41 33.5%dec) (South 29 0 50.3%dec) (2408)%dec "MAGELLAN2" "Magellan 2, 6.5m, Las Campanas";
  (* palObs.c:874 *) Tel (West 67 45 33.0%dec) (South 23 0 20.8%dec) (5105)%dec "APEX" "APEX 12m telescope, Llano de Chajnantor";
  (* palObs.c:883 *) Tel (West 67 42 8.0%dec) (South 22 57 47.0%dec) (4865)%dec "NANTEN2" "NANTEN2 4m telescope, Pampa la Bola";
  (* palObs.c:892 *) Tel (West 3 23 55.51%dec) (North 37 4 6.29%dec) (2850.0)%dec "IRAM30M" "IRAM 30m telescope, Pico Veleta";
  (* palObs.c:901 *) Tel (East 5 54 28.5%dec) (North 44 38 2.0%dec) (2550.0)%dec "NOEMA" "NOEMA interferometer, Plateau de Bure"
].
