(** The profiles shipped with the package, src/mqt/qcec/profiles/*.profile (12 files of 921 lines), character by character, and the lookup by name,
    src/mqt/qcec/verify_compilation_flow.py:92-96. Generated from these files by a script; no proofs in this file. *)
From Coq Require Import String List.
Local Open Scope string_scope.

(** src/mqt/qcec/profiles/qiskit_O0_noancilla.profile:1-921 *)
Definition qiskit_O0_noancilla : string := "# qiskit_O0_noancilla.profile, Qiskit version: 1.2.0
x 0 1
y 0 2
z 0 1
h 0 3
s 0 1
sdg 0 1
t 0 1
tdg 0 1
sx 0 1
sxdg 0 5
p 0 1
rx 0 5
ry 0 5
rz 0 1
u 0 5
swap 0 3
iswap 0 10
dcx 0 2
ecr 0 4
rxx 0 15
ryy 0 19
rzz 0 3
rzx 0 9
x 1 1
y 1 3
z 1 7
h 1 11
sx 1 11
p 1 5
rx 1 10
ry 1 12
rz 1 4
u 1 15
swap 1 21
x 2 19
p 2 37
p 3 88
p 4 161
p 5 266
p 6 403
p 7 664
p 8 1053
p 9 1506
p 10 2023
p 11 2604
p 12 3185
p 13 3766
p 14 4347
p 15 4928
p 16 5509
p 17 6090
p 18 6671
p 19 7252
p 20 7833
p 21 8414
p 22 8995
p 23 9576
p 24 10157
p 25 10738
p 26 11319
p 27 11900
p 28 12481
p 29 13062
p 30 13643
p 31 14224
p 32 14805
p 33 15386
p 34 15967
p 35 16548
p 36 17129
p 37 17710
p 38 18291
p 39 18872
p 40 19453
p 41 20034
p 42 20615
p 43 21196
p 44 21777
p 45 22358
p 46 22939
p 47 23520
p 48 24101
p 49 24682
p 50 25263
p 51 25844
p 52 26425
p 53 27006
p 54 27587
p 55 28168
p 56 28749
p 57 29330
p 58 29911
p 59 30492
p 60 31073
p 61 31654
p 62 32235
p 63 32816
p 64 33397
p 65 33978
p 66 34559
p 67 35140
p 68 35721
p 69 36302
p 70 36883
p 71 37464
p 72 38045
p 73 38626
p 74 39207
p 75 39788
p 76 40369
p 77 40950
p 78 41531
p 79 42112
p 80 42693
p 81 43274
p 82 43855
p 83 44436
p 84 45017
p 85 45598
p 86 46179
p 87 46760
p 88 47341
p 89 47922
p 90 48503
p 91 49084
p 92 49665
p 93 50246
p 94 50827
p 95 51408
p 96 51989
p 97 52570
p 98 53151
p 99 53732
p 100 54313
p 101 54894
p 102 55475
p 103 56056
p 104 56637
p 105 57218
p 106 57799
p 107 58380
p 108 58961
p 109 59542
p 110 60123
p 111 60704
p 112 61285
p 113 61866
p 114 62447
p 115 63028
p 116 63609
p 117 64190
p 118 64771
p 119 65352
p 120 65933
p 121 66514
p 122 67095
p 123 67676
p 124 68257
p 125 68838
p 126 69419
p 127 70000
x 3 35
x 4 157
x 5 272
x 6 409
x 7 670
x 8 1059
x 9 1512
x 10 2029
x 11 2610
x 12 3191
x 13 3772
x 14 4353
x 15 4934
x 16 5515
x 17 6096
x 18 6677
x 19 7258
x 20 7839
x 21 8420
x 22 9001
x 23 9582
x 24 10163
x 25 10744
x 26 11325
x 27 11906
x 28 12487
x 29 13068
x 30 13649
x 31 14230
x 32 14811
x 33 15392
x 34 15973
x 35 16554
x 36 17135
x 37 17716
x 38 18297
x 39 18878
x 40 19459
x 41 20040
x 42 20621
x 43 21202
x 44 21783
x 45 22364
x 46 22945
x 47 23526
x 48 24107
x 49 24688
x 50 25269
x 51 25850
x 52 26431
x 53 27012
x 54 27593
x 55 28174
x 56 28755
x 57 29336
x 58 29917
x 59 30498
x 60 31079
x 61 31660
x 62 32241
x 63 32822
x 64 33403
x 65 33984
x 66 34565
x 67 35146
x 68 35727
x 69 36308
x 70 36889
x 71 37470
x 72 38051
x 73 38632
x 74 39213
x 75 39794
x 76 40375
x 77 40956
x 78 41537
x 79 42118
x 80 42699
x 81 43280
x 82 43861
x 83 44442
x 84 45023
x 85 45604
x 86 46185
x 87 46766
x 88 47347
x 89 47928
x 90 48509
x 91 49090
x 92 49671
x 93 50252
x 94 50833
x 95 51414
x 96 51995
x 97 52576
x 98 53157
x 99 53738
x 100 54319
x 101 54900
x 102 55481
x 103 56062
x 104 56643
x 105 57224
x 106 57805
x 107 58386
x 108 58967
x 109 59548
x 110 60129
x 111 60710
x 112 61291
x 113 61872
x 114 62453
x 115 63034
x 116 63615
x 117 64196
x 118 64777
x 119 65358
x 120 65939
x 121 66520
x 122 67101
x 123 67682
x 124 68263
x 125 68844
x 126 69425
x 127 70006
s 1 5
sdg 1 5
t 1 5
tdg 1 5
z 2 37
s 2 37
sdg 2 37
t 2 37
tdg 2 37
z 3 88
s 3 88
sdg 3 88
t 3 88
tdg 3 88
z 4 161
s 4 161
sdg 4 161
t 4 161
tdg 4 161
z 5 266
s 5 266
sdg 5 266
t 5 266
tdg 5 266
z 6 403
s 6 403
sdg 6 403
t 6 403
tdg 6 403
z 7 664
s 7 664
sdg 7 664
t 7 664
tdg 7 664
z 8 1053
s 8 1053
sdg 8 1053
t 8 1053
tdg 8 1053
z 9 1506
s 9 1506
sdg 9 1506
t 9 1506
tdg 9 1506
z 10 2023
s 10 2023
sdg 10 2023
t 10 2023
tdg 10 2023
z 11 2604
s 11 2604
sdg 11 2604
t 11 2604
tdg 11 2604
z 12 3185
s 12 3185
sdg 12 3185
t 12 3185
tdg 12 3185
z 13 3766
s 13 3766
sdg 13 3766
t 13 3766
tdg 13 3766
z 14 4347
s 14 4347
sdg 14 4347
t 14 4347
tdg 14 4347
z 15 4928
s 15 4928
sdg 15 4928
t 15 4928
tdg 15 4928
z 16 5509
s 16 5509
sdg 16 5509
t 16 5509
tdg 16 5509
z 17 6090
s 17 6090
sdg 17 6090
t 17 6090
tdg 17 6090
z 18 6671
s 18 6671
sdg 18 6671
t 18 6671
tdg 18 6671
z 19 7252
s 19 7252
sdg 19 7252
t 19 7252
tdg 19 7252
z 20 7833
s 20 7833
sdg 20 7833
t 20 7833
tdg 20 7833
z 21 8414
s 21 8414
sdg 21 8414
t 21 8414
tdg 21 8414
z 22 8995
s 22 8995
sdg 22 8995
t 22 8995
tdg 22 8995
z 23 9576
s 23 9576
sdg 23 9576
t 23 9576
tdg 23 9576
z 24 10157
s 24 10157
sdg 24 10157
t 24 10157
tdg 24 10157
z 25 10738
s 25 10738
sdg 25 10738
t 25 10738
tdg 25 10738
z 26 11319
s 26 11319
sdg 26 11319
t 26 11319
tdg 26 11319
z 27 11900
s 27 11900
sdg 27 11900
t 27 11900
tdg 27 11900
z 28 12481
s 28 12481
sdg 28 12481
t 28 12481
tdg 28 12481
z 29 13062
s 29 13062
sdg 29 13062
t 29 13062
tdg 29 13062
z 30 13643
s 30 13643
sdg 30 13643
t 30 13643
tdg 30 13643
z 31 14224
s 31 14224
sdg 31 14224
t 31 14224
tdg 31 14224
z 32 14805
s 32 14805
sdg 32 14805
t 32 14805
tdg 32 14805
z 33 15386
s 33 15386
sdg 33 15386
t 33 15386
tdg 33 15386
z 34 15967
s 34 15967
sdg 34 15967
t 34 15967
tdg 34 15967
z 35 16548
s 35 16548
sdg 35 16548
t 35 16548
tdg 35 16548
z 36 17129
s 36 17129
sdg 36 17129
t 36 17129
tdg 36 17129
z 37 17710
s 37 17710
sdg 37 17710
t 37 17710
tdg 37 17710
z 38 18291
s 38 18291
sdg 38 18291
t 38 18291
tdg 38 18291
z 39 18872
s 39 18872
sdg 39 18872
t 39 18872
tdg 39 18872
z 40 19453
s 40 19453
sdg 40 19453
t 40 19453
tdg 40 19453
z 41 20034
s 41 20034
sdg 41 20034
t 41 20034
tdg 41 20034
z 42 20615
s 42 20615
sdg 42 20615
t 42 20615
tdg 42 20615
z 43 21196
s 43 21196
sdg 43 21196
t 43 21196
tdg 43 21196
z 44 21777
s 44 21777
sdg 44 21777
t 44 21777
tdg 44 21777
z 45 22358
s 45 22358
sdg 45 22358
t 45 22358
tdg 45 22358
z 46 22939
s 46 22939
sdg 46 22939
t 46 22939
tdg 46 22939
z 47 23520
s 47 23520
sdg 47 23520
t 47 23520
tdg 47 23520
z 48 24101
s 48 24101
sdg 48 24101
t 48 24101
tdg 48 24101
z 49 24682
s 49 24682
sdg 49 24682
t 49 24682
tdg 49 24682
z 50 25263
s 50 25263
sdg 50 25263
t 50 25263
tdg 50 25263
z 51 25844
s 51 25844
sdg 51 25844
t 51 25844
tdg 51 25844
z 52 26425
s 52 26425
sdg 52 26425
t 52 26425
tdg 52 26425
z 53 27006
s 53 27006
sdg 53 27006
t 53 27006
tdg 53 27006
z 54 27587
s 54 27587
sdg 54 27587
t 54 27587
tdg 54 27587
z 55 28168
s 55 28168
sdg 55 28168
t 55 28168
tdg 55 28168
z 56 28749
s 56 28749
sdg 56 28749
t 56 28749
tdg 56 28749
z 57 29330
s 57 29330
sdg 57 29330
t 57 29330
tdg 57 29330
z 58 29911
s 58 29911
sdg 58 29911
t 58 29911
tdg 58 29911
z 59 30492
s 59 30492
sdg 59 30492
t 59 30492
tdg 59 30492
z 60 31073
s 60 31073
sdg 60 31073
t 60 31073
tdg 60 31073
z 61 31654
s 61 31654
sdg 61 31654
t 61 31654
tdg 61 31654
z 62 32235
s 62 32235
sdg 62 32235
t 62 32235
tdg 62 32235
z 63 32816
s 63 32816
sdg 63 32816
t 63 32816
tdg 63 32816
z 64 33397
s 64 33397
sdg 64 33397
t 64 33397
tdg 64 33397
z 65 33978
s 65 33978
sdg 65 33978
t 65 33978
tdg 65 33978
z 66 34559
s 66 34559
sdg 66 34559
t 66 34559
tdg 66 34559
z 67 35140
s 67 35140
sdg 67 35140
t 67 35140
tdg 67 35140
z 68 35721
s 68 35721
sdg 68 35721
t 68 35721
tdg 68 35721
z 69 36302
s 69 36302
sdg 69 36302
t 69 36302
tdg 69 36302
z 70 36883
s 70 36883
sdg 70 36883
t 70 36883
tdg 70 36883
z 71 37464
s 71 37464
sdg 71 37464
t 71 37464
tdg 71 37464
z 72 38045
s 72 38045
sdg 72 38045
t 72 38045
tdg 72 38045
z 73 38626
s 73 38626
sdg 73 38626
t 73 38626
tdg 73 38626
z 74 39207
s 74 39207
sdg 74 39207
t 74 39207
tdg 74 39207
z 75 39788
s 75 39788
sdg 75 39788
t 75 39788
tdg 75 39788
z 76 40369
s 76 40369
sdg 76 40369
t 76 40369
tdg 76 40369
z 77 40950
s 77 40950
sdg 77 40950
t 77 40950
tdg 77 40950
z 78 41531
s 78 41531
sdg 78 41531
t 78 41531
tdg 78 41531
z 79 42112
s 79 42112
sdg 79 42112
t 79 42112
tdg 79 42112
z 80 42693
s 80 42693
sdg 80 42693
t 80 42693
tdg 80 42693
z 81 43274
s 81 43274
sdg 81 43274
t 81 43274
tdg 81 43274
z 82 43855
s 82 43855
sdg 82 43855
t 82 43855
tdg 82 43855
z 83 44436
s 83 44436
sdg 83 44436
t 83 44436
tdg 83 44436
z 84 45017
s 84 45017
sdg 84 45017
t 84 45017
tdg 84 45017
z 85 45598
s 85 45598
sdg 85 45598
t 85 45598
tdg 85 45598
z 86 46179
s 86 46179
sdg 86 46179
t 86 46179
tdg 86 46179
z 87 46760
s 87 46760
sdg 87 46760
t 87 46760
tdg 87 46760
z 88 47341
s 88 47341
sdg 88 47341
t 88 47341
tdg 88 47341
z 89 47922
s 89 47922
sdg 89 47922
t 89 47922
tdg 89 47922
z 90 48503
s 90 48503
sdg 90 48503
t 90 48503
tdg 90 48503
z 91 49084
s 91 49084
sdg 91 49084
t 91 49084
tdg 91 49084
z 92 49665
s 92 49665
sdg 92 49665
t 92 49665
tdg 92 49665
z 93 50246
s 93 50246
sdg 93 50246
t 93 50246
tdg 93 50246
z 94 50827
s 94 50827
sdg 94 50827
t 94 50827
tdg 94 50827
z 95 51408
s 95 51408
sdg 95 51408
t 95 51408
tdg 95 51408
z 96 51989
s 96 51989
sdg 96 51989
t 96 51989
tdg 96 51989
z 97 52570
s 97 52570
sdg 97 52570
t 97 52570
tdg 97 52570
z 98 53151
s 98 53151
sdg 98 53151
t 98 53151
tdg 98 53151
z 99 53732
s 99 53732
sdg 99 53732
t 99 53732
tdg 99 53732
z 100 54313
s 100 54313
sdg 100 54313
t 100 54313
tdg 100 54313
z 101 54894
s 101 54894
sdg 101 54894
t 101 54894
tdg 101 54894
z 102 55475
s 102 55475
sdg 102 55475
t 102 55475
tdg 102 55475
z 103 56056
s 103 56056
sdg 103 56056
t 103 56056
tdg 103 56056
z 104 56637
s 104 56637
sdg 104 56637
t 104 56637
tdg 104 56637
z 105 57218
s 105 57218
sdg 105 57218
t 105 57218
tdg 105 57218
z 106 57799
s 106 57799
sdg 106 57799
t 106 57799
tdg 106 57799
z 107 58380
s 107 58380
sdg 107 58380
t 107 58380
tdg 107 58380
z 108 58961
s 108 58961
sdg 108 58961
t 108 58961
tdg 108 58961
z 109 59542
s 109 59542
sdg 109 59542
t 109 59542
tdg 109 59542
z 110 60123
s 110 60123
sdg 110 60123
t 110 60123
tdg 110 60123
z 111 60704
s 111 60704
sdg 111 60704
t 111 60704
tdg 111 60704
z 112 61285
s 112 61285
sdg 112 61285
t 112 61285
tdg 112 61285
z 113 61866
s 113 61866
sdg 113 61866
t 113 61866
tdg 113 61866
z 114 62447
s 114 62447
sdg 114 62447
t 114 62447
tdg 114 62447
z 115 63028
s 115 63028
sdg 115 63028
t 115 63028
tdg 115 63028
z 116 63609
s 116 63609
sdg 116 63609
t 116 63609
tdg 116 63609
z 117 64190
s 117 64190
sdg 117 64190
t 117 64190
tdg 117 64190
z 118 64771
s 118 64771
sdg 118 64771
t 118 64771
tdg 118 64771
z 119 65352
s 119 65352
sdg 119 65352
t 119 65352
tdg 119 65352
z 120 65933
s 120 65933
sdg 120 65933
t 120 65933
tdg 120 65933
z 121 66514
s 121 66514
sdg 121 66514
t 121 66514
tdg 121 66514
z 122 67095
s 122 67095
sdg 122 67095
t 122 67095
tdg 122 67095
z 123 67676
s 123 67676
sdg 123 67676
t 123 67676
tdg 123 67676
z 124 68257
s 124 68257
sdg 124 68257
t 124 68257
tdg 124 68257
z 125 68838
s 125 68838
sdg 125 68838
t 125 68838
tdg 125 68838
z 126 69419
s 126 69419
sdg 126 69419
t 126 69419
tdg 126 69419
z 127 70000
s 127 70000
sdg 127 70000
t 127 70000
tdg 127 70000
".

(** src/mqt/qcec/profiles/qiskit_O0_recursion.profile:1-921 *)
Definition qiskit_O0_recursion : string := "# qiskit_O0_recursion.profile, Qiskit version: 1.2.0
x 0 1
y 0 2
z 0 1
h 0 3
s 0 1
sdg 0 1
t 0 1
tdg 0 1
sx 0 1
sxdg 0 5
p 0 1
rx 0 5
ry 0 5
rz 0 1
u 0 5
swap 0 3
iswap 0 10
dcx 0 2
ecr 0 4
rxx 0 15
ryy 0 19
rzz 0 3
rzx 0 9
x 1 1
y 1 3
z 1 7
h 1 11
sx 1 11
p 1 5
rx 1 10
ry 1 12
rz 1 4
u 1 15
swap 1 21
x 2 19
p 2 37
p 3 88
p 4 161
p 5 266
p 6 403
p 7 664
p 8 1053
p 9 1506
p 10 2023
p 11 2604
p 12 3185
p 13 3766
p 14 4347
p 15 4928
p 16 5509
p 17 6090
p 18 6671
p 19 7252
p 20 7833
p 21 8414
p 22 8995
p 23 9576
p 24 10157
p 25 10738
p 26 11319
p 27 11900
p 28 12481
p 29 13062
p 30 13643
p 31 14224
p 32 14805
p 33 15386
p 34 15967
p 35 16548
p 36 17129
p 37 17710
p 38 18291
p 39 18872
p 40 19453
p 41 20034
p 42 20615
p 43 21196
p 44 21777
p 45 22358
p 46 22939
p 47 23520
p 48 24101
p 49 24682
p 50 25263
p 51 25844
p 52 26425
p 53 27006
p 54 27587
p 55 28168
p 56 28749
p 57 29330
p 58 29911
p 59 30492
p 60 31073
p 61 31654
p 62 32235
p 63 32816
p 64 33397
p 65 33978
p 66 34559
p 67 35140
p 68 35721
p 69 36302
p 70 36883
p 71 37464
p 72 38045
p 73 38626
p 74 39207
p 75 39788
p 76 40369
p 77 40950
p 78 41531
p 79 42112
p 80 42693
p 81 43274
p 82 43855
p 83 44436
p 84 45017
p 85 45598
p 86 46179
p 87 46760
p 88 47341
p 89 47922
p 90 48503
p 91 49084
p 92 49665
p 93 50246
p 94 50827
p 95 51408
p 96 51989
p 97 52570
p 98 53151
p 99 53732
p 100 54313
p 101 54894
p 102 55475
p 103 56056
p 104 56637
p 105 57218
p 106 57799
p 107 58380
p 108 58961
p 109 59542
p 110 60123
p 111 60704
p 112 61285
p 113 61866
p 114 62447
p 115 63028
p 116 63609
p 117 64190
p 118 64771
p 119 65352
p 120 65933
p 121 66514
p 122 67095
p 123 67676
p 124 68257
p 125 68838
p 126 69419
p 127 70000
x 3 35
x 4 157
x 5 140
x 6 254
x 7 368
x 8 424
x 9 480
x 10 536
x 11 592
x 12 648
x 13 704
x 14 760
x 15 816
x 16 872
x 17 928
x 18 984
x 19 1040
x 20 1096
x 21 1152
x 22 1208
x 23 1264
x 24 1320
x 25 1376
x 26 1432
x 27 1488
x 28 1544
x 29 1600
x 30 1656
x 31 1712
x 32 1768
x 33 1824
x 34 1880
x 35 1936
x 36 1992
x 37 2048
x 38 2104
x 39 2160
x 40 2216
x 41 2272
x 42 2328
x 43 2384
x 44 2440
x 45 2496
x 46 2552
x 47 2608
x 48 2664
x 49 2720
x 50 2776
x 51 2832
x 52 2888
x 53 2944
x 54 3000
x 55 3056
x 56 3112
x 57 3168
x 58 3224
x 59 3280
x 60 3336
x 61 3392
x 62 3448
x 63 3504
x 64 3560
x 65 3616
x 66 3672
x 67 3728
x 68 3784
x 69 3840
x 70 3896
x 71 3952
x 72 4008
x 73 4064
x 74 4120
x 75 4176
x 76 4232
x 77 4288
x 78 4344
x 79 4400
x 80 4456
x 81 4512
x 82 4568
x 83 4624
x 84 4680
x 85 4736
x 86 4792
x 87 4848
x 88 4904
x 89 4960
x 90 5016
x 91 5072
x 92 5128
x 93 5184
x 94 5240
x 95 5296
x 96 5352
x 97 5408
x 98 5464
x 99 5520
x 100 5576
x 101 5632
x 102 5688
x 103 5744
x 104 5800
x 105 5856
x 106 5912
x 107 5968
x 108 6024
x 109 6080
x 110 6136
x 111 6192
x 112 6248
x 113 6304
x 114 6360
x 115 6416
x 116 6472
x 117 6528
x 118 6584
x 119 6640
x 120 6696
x 121 6752
x 122 6808
x 123 6864
x 124 6920
x 125 6976
x 126 7032
x 127 7088
s 1 5
sdg 1 5
t 1 5
tdg 1 5
z 2 37
s 2 37
sdg 2 37
t 2 37
tdg 2 37
z 3 88
s 3 88
sdg 3 88
t 3 88
tdg 3 88
z 4 161
s 4 161
sdg 4 161
t 4 161
tdg 4 161
z 5 266
s 5 266
sdg 5 266
t 5 266
tdg 5 266
z 6 403
s 6 403
sdg 6 403
t 6 403
tdg 6 403
z 7 664
s 7 664
sdg 7 664
t 7 664
tdg 7 664
z 8 1053
s 8 1053
sdg 8 1053
t 8 1053
tdg 8 1053
z 9 1506
s 9 1506
sdg 9 1506
t 9 1506
tdg 9 1506
z 10 2023
s 10 2023
sdg 10 2023
t 10 2023
tdg 10 2023
z 11 2604
s 11 2604
sdg 11 2604
t 11 2604
tdg 11 2604
z 12 3185
s 12 3185
sdg 12 3185
t 12 3185
tdg 12 3185
z 13 3766
s 13 3766
sdg 13 3766
t 13 3766
tdg 13 3766
z 14 4347
s 14 4347
sdg 14 4347
t 14 4347
tdg 14 4347
z 15 4928
s 15 4928
sdg 15 4928
t 15 4928
tdg 15 4928
z 16 5509
s 16 5509
sdg 16 5509
t 16 5509
tdg 16 5509
z 17 6090
s 17 6090
sdg 17 6090
t 17 6090
tdg 17 6090
z 18 6671
s 18 6671
sdg 18 6671
t 18 6671
tdg 18 6671
z 19 7252
s 19 7252
sdg 19 7252
t 19 7252
tdg 19 7252
z 20 7833
s 20 7833
sdg 20 7833
t 20 7833
tdg 20 7833
z 21 8414
s 21 8414
sdg 21 8414
t 21 8414
tdg 21 8414
z 22 8995
s 22 8995
sdg 22 8995
t 22 8995
tdg 22 8995
z 23 9576
s 23 9576
sdg 23 9576
t 23 9576
tdg 23 9576
z 24 10157
s 24 10157
sdg 24 10157
t 24 10157
tdg 24 10157
z 25 10738
s 25 10738
sdg 25 10738
t 25 10738
tdg 25 10738
z 26 11319
s 26 11319
sdg 26 11319
t 26 11319
tdg 26 11319
z 27 11900
s 27 11900
sdg 27 11900
t 27 11900
tdg 27 11900
z 28 12481
s 28 12481
sdg 28 12481
t 28 12481
tdg 28 12481
z 29 13062
s 29 13062
sdg 29 13062
t 29 13062
tdg 29 13062
z 30 13643
s 30 13643
sdg 30 13643
t 30 13643
tdg 30 13643
z 31 14224
s 31 14224
sdg 31 14224
t 31 14224
tdg 31 14224
z 32 14805
s 32 14805
sdg 32 14805
t 32 14805
tdg 32 14805
z 33 15386
s 33 15386
sdg 33 15386
t 33 15386
tdg 33 15386
z 34 15967
s 34 15967
sdg 34 15967
t 34 15967
tdg 34 15967
z 35 16548
s 35 16548
sdg 35 16548
t 35 16548
tdg 35 16548
z 36 17129
s 36 17129
sdg 36 17129
t 36 17129
tdg 36 17129
z 37 17710
s 37 17710
sdg 37 17710
t 37 17710
tdg 37 17710
z 38 18291
s 38 18291
sdg 38 18291
t 38 18291
tdg 38 18291
z 39 18872
s 39 18872
sdg 39 18872
t 39 18872
tdg 39 18872
z 40 19453
s 40 19453
sdg 40 19453
t 40 19453
tdg 40 19453
z 41 20034
s 41 20034
sdg 41 20034
t 41 20034
tdg 41 20034
z 42 20615
s 42 20615
sdg 42 20615
t 42 20615
tdg 42 20615
z 43 21196
s 43 21196
sdg 43 21196
t 43 21196
tdg 43 21196
z 44 21777
s 44 21777
sdg 44 21777
t 44 21777
tdg 44 21777
z 45 22358
s 45 22358
sdg 45 22358
t 45 22358
tdg 45 22358
z 46 22939
s 46 22939
sdg 46 22939
t 46 22939
tdg 46 22939
z 47 23520
s 47 23520
sdg 47 23520
t 47 23520
tdg 47 23520
z 48 24101
s 48 24101
sdg 48 24101
t 48 24101
tdg 48 24101
z 49 24682
s 49 24682
sdg 49 24682
t 49 24682
tdg 49 24682
z 50 25263
s 50 25263
sdg 50 25263
t 50 25263
tdg 50 25263
z 51 25844
s 51 25844
sdg 51 25844
t 51 25844
tdg 51 25844
z 52 26425
s 52 26425
sdg 52 26425
t 52 26425
tdg 52 26425
z 53 27006
s 53 27006
sdg 53 27006
t 53 27006
tdg 53 27006
z 54 27587
s 54 27587
sdg 54 27587
t 54 27587
tdg 54 27587
z 55 28168
s 55 28168
sdg 55 28168
t 55 28168
tdg 55 28168
z 56 28749
s 56 28749
sdg 56 28749
t 56 28749
tdg 56 28749
z 57 29330
s 57 29330
sdg 57 29330
t 57 29330
tdg 57 29330
z 58 29911
s 58 29911
sdg 58 29911
t 58 29911
tdg 58 29911
z 59 30492
s 59 30492
sdg 59 30492
t 59 30492
tdg 59 30492
z 60 31073
s 60 31073
sdg 60 31073
t 60 31073
tdg 60 31073
z 61 31654
s 61 31654
sdg 61 31654
t 61 31654
tdg 61 31654
z 62 32235
s 62 32235
sdg 62 32235
t 62 32235
tdg 62 32235
z 63 32816
s 63 32816
sdg 63 32816
t 63 32816
tdg 63 32816
z 64 33397
s 64 33397
sdg 64 33397
t 64 33397
tdg 64 33397
z 65 33978
s 65 33978
sdg 65 33978
t 65 33978
tdg 65 33978
z 66 34559
s 66 34559
sdg 66 34559
t 66 34559
tdg 66 34559
z 67 35140
s 67 35140
sdg 67 35140
t 67 35140
tdg 67 35140
z 68 35721
s 68 35721
sdg 68 35721
t 68 35721
tdg 68 35721
z 69 36302
s 69 36302
sdg 69 36302
t 69 36302
tdg 69 36302
z 70 36883
s 70 36883
sdg 70 36883
t 70 36883
tdg 70 36883
z 71 37464
s 71 37464
sdg 71 37464
t 71 37464
tdg 71 37464
z 72 38045
s 72 38045
sdg 72 38045
t 72 38045
tdg 72 38045
z 73 38626
s 73 38626
sdg 73 38626
t 73 38626
tdg 73 38626
z 74 39207
s 74 39207
sdg 74 39207
t 74 39207
tdg 74 39207
z 75 39788
s 75 39788
sdg 75 39788
t 75 39788
tdg 75 39788
z 76 40369
s 76 40369
sdg 76 40369
t 76 40369
tdg 76 40369
z 77 40950
s 77 40950
sdg 77 40950
t 77 40950
tdg 77 40950
z 78 41531
s 78 41531
sdg 78 41531
t 78 41531
tdg 78 41531
z 79 42112
s 79 42112
sdg 79 42112
t 79 42112
tdg 79 42112
z 80 42693
s 80 42693
sdg 80 42693
t 80 42693
tdg 80 42693
z 81 43274
s 81 43274
sdg 81 43274
t 81 43274
tdg 81 43274
z 82 43855
s 82 43855
sdg 82 43855
t 82 43855
tdg 82 43855
z 83 44436
s 83 44436
sdg 83 44436
t 83 44436
tdg 83 44436
z 84 45017
s 84 45017
sdg 84 45017
t 84 45017
tdg 84 45017
z 85 45598
s 85 45598
sdg 85 45598
t 85 45598
tdg 85 45598
z 86 46179
s 86 46179
sdg 86 46179
t 86 46179
tdg 86 46179
z 87 46760
s 87 46760
sdg 87 46760
t 87 46760
tdg 87 46760
z 88 47341
s 88 47341
sdg 88 47341
t 88 47341
tdg 88 47341
z 89 47922
s 89 47922
sdg 89 47922
t 89 47922
tdg 89 47922
z 90 48503
s 90 48503
sdg 90 48503
t 90 48503
tdg 90 48503
z 91 49084
s 91 49084
sdg 91 49084
t 91 49084
tdg 91 49084
z 92 49665
s 92 49665
sdg 92 49665
t 92 49665
tdg 92 49665
z 93 50246
s 93 50246
sdg 93 50246
t 93 50246
tdg 93 50246
z 94 50827
s 94 50827
sdg 94 50827
t 94 50827
tdg 94 50827
z 95 51408
s 95 51408
sdg 95 51408
t 95 51408
tdg 95 51408
z 96 51989
s 96 51989
sdg 96 51989
t 96 51989
tdg 96 51989
z 97 52570
s 97 52570
sdg 97 52570
t 97 52570
tdg 97 52570
z 98 53151
s 98 53151
sdg 98 53151
t 98 53151
tdg 98 53151
z 99 53732
s 99 53732
sdg 99 53732
t 99 53732
tdg 99 53732
z 100 54313
s 100 54313
sdg 100 54313
t 100 54313
tdg 100 54313
z 101 54894
s 101 54894
sdg 101 54894
t 101 54894
tdg 101 54894
z 102 55475
s 102 55475
sdg 102 55475
t 102 55475
tdg 102 55475
z 103 56056
s 103 56056
sdg 103 56056
t 103 56056
tdg 103 56056
z 104 56637
s 104 56637
sdg 104 56637
t 104 56637
tdg 104 56637
z 105 57218
s 105 57218
sdg 105 57218
t 105 57218
tdg 105 57218
z 106 57799
s 106 57799
sdg 106 57799
t 106 57799
tdg 106 57799
z 107 58380
s 107 58380
sdg 107 58380
t 107 58380
tdg 107 58380
z 108 58961
s 108 58961
sdg 108 58961
t 108 58961
tdg 108 58961
z 109 59542
s 109 59542
sdg 109 59542
t 109 59542
tdg 109 59542
z 110 60123
s 110 60123
sdg 110 60123
t 110 60123
tdg 110 60123
z 111 60704
s 111 60704
sdg 111 60704
t 111 60704
tdg 111 60704
z 112 61285
s 112 61285
sdg 112 61285
t 112 61285
tdg 112 61285
z 113 61866
s 113 61866
sdg 113 61866
t 113 61866
tdg 113 61866
z 114 62447
s 114 62447
sdg 114 62447
t 114 62447
tdg 114 62447
z 115 63028
s 115 63028
sdg 115 63028
t 115 63028
tdg 115 63028
z 116 63609
s 116 63609
sdg 116 63609
t 116 63609
tdg 116 63609
z 117 64190
s 117 64190
sdg 117 64190
t 117 64190
tdg 117 64190
z 118 64771
s 118 64771
sdg 118 64771
t 118 64771
tdg 118 64771
z 119 65352
s 119 65352
sdg 119 65352
t 119 65352
tdg 119 65352
z 120 65933
s 120 65933
sdg 120 65933
t 120 65933
tdg 120 65933
z 121 66514
s 121 66514
sdg 121 66514
t 121 66514
tdg 121 66514
z 122 67095
s 122 67095
sdg 122 67095
t 122 67095
tdg 122 67095
z 123 67676
s 123 67676
sdg 123 67676
t 123 67676
tdg 123 67676
z 124 68257
s 124 68257
sdg 124 68257
t 124 68257
tdg 124 68257
z 125 68838
s 125 68838
sdg 125 68838
t 125 68838
tdg 125 68838
z 126 69419
s 126 69419
sdg 126 69419
t 126 69419
tdg 126 69419
z 127 70000
s 127 70000
sdg 127 70000
t 127 70000
tdg 127 70000
".

(** src/mqt/qcec/profiles/qiskit_O0_v-chain.profile:1-921 *)
Definition qiskit_O0_v_chain : string := "# qiskit_O0_v-chain.profile, Qiskit version: 1.2.0
x 0 1
y 0 2
z 0 1
h 0 3
s 0 1
sdg 0 1
t 0 1
tdg 0 1
sx 0 1
sxdg 0 5
p 0 1
rx 0 5
ry 0 5
rz 0 1
u 0 5
swap 0 3
iswap 0 10
dcx 0 2
ecr 0 4
rxx 0 15
ryy 0 19
rzz 0 3
rzx 0 9
x 1 1
y 1 3
z 1 7
h 1 11
sx 1 11
p 1 5
rx 1 10
ry 1 12
rz 1 4
u 1 15
swap 1 21
x 2 19
p 2 37
p 3 88
p 4 161
p 5 266
p 6 403
p 7 664
p 8 1053
p 9 1506
p 10 2023
p 11 2604
p 12 3185
p 13 3766
p 14 4347
p 15 4928
p 16 5509
p 17 6090
p 18 6671
p 19 7252
p 20 7833
p 21 8414
p 22 8995
p 23 9576
p 24 10157
p 25 10738
p 26 11319
p 27 11900
p 28 12481
p 29 13062
p 30 13643
p 31 14224
p 32 14805
p 33 15386
p 34 15967
p 35 16548
p 36 17129
p 37 17710
p 38 18291
p 39 18872
p 40 19453
p 41 20034
p 42 20615
p 43 21196
p 44 21777
p 45 22358
p 46 22939
p 47 23520
p 48 24101
p 49 24682
p 50 25263
p 51 25844
p 52 26425
p 53 27006
p 54 27587
p 55 28168
p 56 28749
p 57 29330
p 58 29911
p 59 30492
p 60 31073
p 61 31654
p 62 32235
p 63 32816
p 64 33397
p 65 33978
p 66 34559
p 67 35140
p 68 35721
p 69 36302
p 70 36883
p 71 37464
p 72 38045
p 73 38626
p 74 39207
p 75 39788
p 76 40369
p 77 40950
p 78 41531
p 79 42112
p 80 42693
p 81 43274
p 82 43855
p 83 44436
p 84 45017
p 85 45598
p 86 46179
p 87 46760
p 88 47341
p 89 47922
p 90 48503
p 91 49084
p 92 49665
p 93 50246
p 94 50827
p 95 51408
p 96 51989
p 97 52570
p 98 53151
p 99 53732
p 100 54313
p 101 54894
p 102 55475
p 103 56056
p 104 56637
p 105 57218
p 106 57799
p 107 58380
p 108 58961
p 109 59542
p 110 60123
p 111 60704
p 112 61285
p 113 61866
p 114 62447
p 115 63028
p 116 63609
p 117 64190
p 118 64771
p 119 65352
p 120 65933
p 121 66514
p 122 67095
p 123 67676
p 124 68257
p 125 68838
p 126 69419
p 127 70000
x 3 45
x 4 71
x 5 97
x 6 123
x 7 149
x 8 175
x 9 201
x 10 227
x 11 253
x 12 279
x 13 305
x 14 331
x 15 357
x 16 383
x 17 409
x 18 435
x 19 461
x 20 487
x 21 513
x 22 539
x 23 565
x 24 591
x 25 617
x 26 643
x 27 669
x 28 695
x 29 721
x 30 747
x 31 773
x 32 799
x 33 825
x 34 851
x 35 877
x 36 903
x 37 929
x 38 955
x 39 981
x 40 1007
x 41 1033
x 42 1059
x 43 1085
x 44 1111
x 45 1137
x 46 1163
x 47 1189
x 48 1215
x 49 1241
x 50 1267
x 51 1293
x 52 1319
x 53 1345
x 54 1371
x 55 1397
x 56 1423
x 57 1449
x 58 1475
x 59 1501
x 60 1527
x 61 1553
x 62 1579
x 63 1605
x 64 1631
x 65 1657
x 66 1683
x 67 1709
x 68 1735
x 69 1761
x 70 1787
x 71 1813
x 72 1839
x 73 1865
x 74 1891
x 75 1917
x 76 1943
x 77 1969
x 78 1995
x 79 2021
x 80 2047
x 81 2073
x 82 2099
x 83 2125
x 84 2151
x 85 2177
x 86 2203
x 87 2229
x 88 2255
x 89 2281
x 90 2307
x 91 2333
x 92 2359
x 93 2385
x 94 2411
x 95 2437
x 96 2463
x 97 2489
x 98 2515
x 99 2541
x 100 2567
x 101 2593
x 102 2619
x 103 2645
x 104 2671
x 105 2697
x 106 2723
x 107 2749
x 108 2775
x 109 2801
x 110 2827
x 111 2853
x 112 2879
x 113 2905
x 114 2931
x 115 2957
x 116 2983
x 117 3009
x 118 3035
x 119 3061
x 120 3087
x 121 3113
x 122 3139
x 123 3165
x 124 3191
x 125 3217
x 126 3243
x 127 3269
s 1 5
sdg 1 5
t 1 5
tdg 1 5
z 2 37
s 2 37
sdg 2 37
t 2 37
tdg 2 37
z 3 88
s 3 88
sdg 3 88
t 3 88
tdg 3 88
z 4 161
s 4 161
sdg 4 161
t 4 161
tdg 4 161
z 5 266
s 5 266
sdg 5 266
t 5 266
tdg 5 266
z 6 403
s 6 403
sdg 6 403
t 6 403
tdg 6 403
z 7 664
s 7 664
sdg 7 664
t 7 664
tdg 7 664
z 8 1053
s 8 1053
sdg 8 1053
t 8 1053
tdg 8 1053
z 9 1506
s 9 1506
sdg 9 1506
t 9 1506
tdg 9 1506
z 10 2023
s 10 2023
sdg 10 2023
t 10 2023
tdg 10 2023
z 11 2604
s 11 2604
sdg 11 2604
t 11 2604
tdg 11 2604
z 12 3185
s 12 3185
sdg 12 3185
t 12 3185
tdg 12 3185
z 13 3766
s 13 3766
sdg 13 3766
t 13 3766
tdg 13 3766
z 14 4347
s 14 4347
sdg 14 4347
t 14 4347
tdg 14 4347
z 15 4928
s 15 4928
sdg 15 4928
t 15 4928
tdg 15 4928
z 16 5509
s 16 5509
sdg 16 5509
t 16 5509
tdg 16 5509
z 17 6090
s 17 6090
sdg 17 6090
t 17 6090
tdg 17 6090
z 18 6671
s 18 6671
sdg 18 6671
t 18 6671
tdg 18 6671
z 19 7252
s 19 7252
sdg 19 7252
t 19 7252
tdg 19 7252
z 20 7833
s 20 7833
sdg 20 7833
t 20 7833
tdg 20 7833
z 21 8414
s 21 8414
sdg 21 8414
t 21 8414
tdg 21 8414
z 22 8995
s 22 8995
sdg 22 8995
t 22 8995
tdg 22 8995
z 23 9576
s 23 9576
sdg 23 9576
t 23 9576
tdg 23 9576
z 24 10157
s 24 10157
sdg 24 10157
t 24 10157
tdg 24 10157
z 25 10738
s 25 10738
sdg 25 10738
t 25 10738
tdg 25 10738
z 26 11319
s 26 11319
sdg 26 11319
t 26 11319
tdg 26 11319
z 27 11900
s 27 11900
sdg 27 11900
t 27 11900
tdg 27 11900
z 28 12481
s 28 12481
sdg 28 12481
t 28 12481
tdg 28 12481
z 29 13062
s 29 13062
sdg 29 13062
t 29 13062
tdg 29 13062
z 30 13643
s 30 13643
sdg 30 13643
t 30 13643
tdg 30 13643
z 31 14224
s 31 14224
sdg 31 14224
t 31 14224
tdg 31 14224
z 32 14805
s 32 14805
sdg 32 14805
t 32 14805
tdg 32 14805
z 33 15386
s 33 15386
sdg 33 15386
t 33 15386
tdg 33 15386
z 34 15967
s 34 15967
sdg 34 15967
t 34 15967
tdg 34 15967
z 35 16548
s 35 16548
sdg 35 16548
t 35 16548
tdg 35 16548
z 36 17129
s 36 17129
sdg 36 17129
t 36 17129
tdg 36 17129
z 37 17710
s 37 17710
sdg 37 17710
t 37 17710
tdg 37 17710
z 38 18291
s 38 18291
sdg 38 18291
t 38 18291
tdg 38 18291
z 39 18872
s 39 18872
sdg 39 18872
t 39 18872
tdg 39 18872
z 40 19453
s 40 19453
sdg 40 19453
t 40 19453
tdg 40 19453
z 41 20034
s 41 20034
sdg 41 20034
t 41 20034
tdg 41 20034
z 42 20615
s 42 20615
sdg 42 20615
t 42 20615
tdg 42 20615
z 43 21196
s 43 21196
sdg 43 21196
t 43 21196
tdg 43 21196
z 44 21777
s 44 21777
sdg 44 21777
t 44 21777
tdg 44 21777
z 45 22358
s 45 22358
sdg 45 22358
t 45 22358
tdg 45 22358
z 46 22939
s 46 22939
sdg 46 22939
t 46 22939
tdg 46 22939
z 47 23520
s 47 23520
sdg 47 23520
t 47 23520
tdg 47 23520
z 48 24101
s 48 24101
sdg 48 24101
t 48 24101
tdg 48 24101
z 49 24682
s 49 24682
sdg 49 24682
t 49 24682
tdg 49 24682
z 50 25263
s 50 25263
sdg 50 25263
t 50 25263
tdg 50 25263
z 51 25844
s 51 25844
sdg 51 25844
t 51 25844
tdg 51 25844
z 52 26425
s 52 26425
sdg 52 26425
t 52 26425
tdg 52 26425
z 53 27006
s 53 27006
sdg 53 27006
t 53 27006
tdg 53 27006
z 54 27587
s 54 27587
sdg 54 27587
t 54 27587
tdg 54 27587
z 55 28168
s 55 28168
sdg 55 28168
t 55 28168
tdg 55 28168
z 56 28749
s 56 28749
sdg 56 28749
t 56 28749
tdg 56 28749
z 57 29330
s 57 29330
sdg 57 29330
t 57 29330
tdg 57 29330
z 58 29911
s 58 29911
sdg 58 29911
t 58 29911
tdg 58 29911
z 59 30492
s 59 30492
sdg 59 30492
t 59 30492
tdg 59 30492
z 60 31073
s 60 31073
sdg 60 31073
t 60 31073
tdg 60 31073
z 61 31654
s 61 31654
sdg 61 31654
t 61 31654
tdg 61 31654
z 62 32235
s 62 32235
sdg 62 32235
t 62 32235
tdg 62 32235
z 63 32816
s 63 32816
sdg 63 32816
t 63 32816
tdg 63 32816
z 64 33397
s 64 33397
sdg 64 33397
t 64 33397
tdg 64 33397
z 65 33978
s 65 33978
sdg 65 33978
t 65 33978
tdg 65 33978
z 66 34559
s 66 34559
sdg 66 34559
t 66 34559
tdg 66 34559
z 67 35140
s 67 35140
sdg 67 35140
t 67 35140
tdg 67 35140
z 68 35721
s 68 35721
sdg 68 35721
t 68 35721
tdg 68 35721
z 69 36302
s 69 36302
sdg 69 36302
t 69 36302
tdg 69 36302
z 70 36883
s 70 36883
sdg 70 36883
t 70 36883
tdg 70 36883
z 71 37464
s 71 37464
sdg 71 37464
t 71 37464
tdg 71 37464
z 72 38045
s 72 38045
sdg 72 38045
t 72 38045
tdg 72 38045
z 73 38626
s 73 38626
sdg 73 38626
t 73 38626
tdg 73 38626
z 74 39207
s 74 39207
sdg 74 39207
t 74 39207
tdg 74 39207
z 75 39788
s 75 39788
sdg 75 39788
t 75 39788
tdg 75 39788
z 76 40369
s 76 40369
sdg 76 40369
t 76 40369
tdg 76 40369
z 77 40950
s 77 40950
sdg 77 40950
t 77 40950
tdg 77 40950
z 78 41531
s 78 41531
sdg 78 41531
t 78 41531
tdg 78 41531
z 79 42112
s 79 42112
sdg 79 42112
t 79 42112
tdg 79 42112
z 80 42693
s 80 42693
sdg 80 42693
t 80 42693
tdg 80 42693
z 81 43274
s 81 43274
sdg 81 43274
t 81 43274
tdg 81 43274
z 82 43855
s 82 43855
sdg 82 43855
t 82 43855
tdg 82 43855
z 83 44436
s 83 44436
sdg 83 44436
t 83 44436
tdg 83 44436
z 84 45017
s 84 45017
sdg 84 45017
t 84 45017
tdg 84 45017
z 85 45598
s 85 45598
sdg 85 45598
t 85 45598
tdg 85 45598
z 86 46179
s 86 46179
sdg 86 46179
t 86 46179
tdg 86 46179
z 87 46760
s 87 46760
sdg 87 46760
t 87 46760
tdg 87 46760
z 88 47341
s 88 47341
sdg 88 47341
t 88 47341
tdg 88 47341
z 89 47922
s 89 47922
sdg 89 47922
t 89 47922
tdg 89 47922
z 90 48503
s 90 48503
sdg 90 48503
t 90 48503
tdg 90 48503
z 91 49084
s 91 49084
sdg 91 49084
t 91 49084
tdg 91 49084
z 92 49665
s 92 49665
sdg 92 49665
t 92 49665
tdg 92 49665
z 93 50246
s 93 50246
sdg 93 50246
t 93 50246
tdg 93 50246
z 94 50827
s 94 50827
sdg 94 50827
t 94 50827
tdg 94 50827
z 95 51408
s 95 51408
sdg 95 51408
t 95 51408
tdg 95 51408
z 96 51989
s 96 51989
sdg 96 51989
t 96 51989
tdg 96 51989
z 97 52570
s 97 52570
sdg 97 52570
t 97 52570
tdg 97 52570
z 98 53151
s 98 53151
sdg 98 53151
t 98 53151
tdg 98 53151
z 99 53732
s 99 53732
sdg 99 53732
t 99 53732
tdg 99 53732
z 100 54313
s 100 54313
sdg 100 54313
t 100 54313
tdg 100 54313
z 101 54894
s 101 54894
sdg 101 54894
t 101 54894
tdg 101 54894
z 102 55475
s 102 55475
sdg 102 55475
t 102 55475
tdg 102 55475
z 103 56056
s 103 56056
sdg 103 56056
t 103 56056
tdg 103 56056
z 104 56637
s 104 56637
sdg 104 56637
t 104 56637
tdg 104 56637
z 105 57218
s 105 57218
sdg 105 57218
t 105 57218
tdg 105 57218
z 106 57799
s 106 57799
sdg 106 57799
t 106 57799
tdg 106 57799
z 107 58380
s 107 58380
sdg 107 58380
t 107 58380
tdg 107 58380
z 108 58961
s 108 58961
sdg 108 58961
t 108 58961
tdg 108 58961
z 109 59542
s 109 59542
sdg 109 59542
t 109 59542
tdg 109 59542
z 110 60123
s 110 60123
sdg 110 60123
t 110 60123
tdg 110 60123
z 111 60704
s 111 60704
sdg 111 60704
t 111 60704
tdg 111 60704
z 112 61285
s 112 61285
sdg 112 61285
t 112 61285
tdg 112 61285
z 113 61866
s 113 61866
sdg 113 61866
t 113 61866
tdg 113 61866
z 114 62447
s 114 62447
sdg 114 62447
t 114 62447
tdg 114 62447
z 115 63028
s 115 63028
sdg 115 63028
t 115 63028
tdg 115 63028
z 116 63609
s 116 63609
sdg 116 63609
t 116 63609
tdg 116 63609
z 117 64190
s 117 64190
sdg 117 64190
t 117 64190
tdg 117 64190
z 118 64771
s 118 64771
sdg 118 64771
t 118 64771
tdg 118 64771
z 119 65352
s 119 65352
sdg 119 65352
t 119 65352
tdg 119 65352
z 120 65933
s 120 65933
sdg 120 65933
t 120 65933
tdg 120 65933
z 121 66514
s 121 66514
sdg 121 66514
t 121 66514
tdg 121 66514
z 122 67095
s 122 67095
sdg 122 67095
t 122 67095
tdg 122 67095
z 123 67676
s 123 67676
sdg 123 67676
t 123 67676
tdg 123 67676
z 124 68257
s 124 68257
sdg 124 68257
t 124 68257
tdg 124 68257
z 125 68838
s 125 68838
sdg 125 68838
t 125 68838
tdg 125 68838
z 126 69419
s 126 69419
sdg 126 69419
t 126 69419
tdg 126 69419
z 127 70000
s 127 70000
sdg 127 70000
t 127 70000
tdg 127 70000
".

(** src/mqt/qcec/profiles/qiskit_O1_noancilla.profile:1-921 *)
Definition qiskit_O1_noancilla : string := "# qiskit_O1_noancilla.profile, Qiskit version: 1.2.0
x 0 1
y 0 2
z 0 1
h 0 3
s 0 1
sdg 0 1
t 0 1
tdg 0 1
sx 0 1
sxdg 0 3
p 0 1
rx 0 5
ry 0 4
rz 0 1
u 0 5
swap 0 3
iswap 0 9
dcx 0 2
ecr 0 4
rxx 0 15
ryy 0 13
rzz 0 3
rzx 0 9
x 1 1
y 1 3
z 1 7
h 1 6
sx 1 10
p 1 5
rx 1 9
ry 1 10
rz 1 4
u 1 12
swap 1 20
x 2 18
p 2 13
p 3 52
p 4 121
p 5 222
p 6 355
p 7 572
p 8 877
p 9 1230
p 10 1631
p 11 2080
p 12 2529
p 13 2978
p 14 3427
p 15 3876
p 16 4325
p 17 4774
p 18 5223
p 19 5672
p 20 6121
p 21 6570
p 22 7019
p 23 7468
p 24 7917
p 25 8366
p 26 8815
p 27 9264
p 28 9713
p 29 10162
p 30 10611
p 31 11060
p 32 11509
p 33 11958
p 34 12407
p 35 12856
p 36 13305
p 37 13754
p 38 14203
p 39 14652
p 40 15101
p 41 15550
p 42 15999
p 43 16448
p 44 16897
p 45 17346
p 46 17795
p 47 18244
p 48 18693
p 49 19142
p 50 19591
p 51 20040
p 52 20489
p 53 20938
p 54 21387
p 55 21836
p 56 22285
p 57 22734
p 58 23183
p 59 23632
p 60 24081
p 61 24530
p 62 24979
p 63 25428
p 64 25877
p 65 26326
p 66 26775
p 67 27224
p 68 27673
p 69 28122
p 70 28571
p 71 29020
p 72 29469
p 73 29918
p 74 30367
p 75 30816
p 76 31265
p 77 31714
p 78 32163
p 79 32612
p 80 33061
p 81 33510
p 82 33959
p 83 34408
p 84 34857
p 85 35306
p 86 35755
p 87 36204
p 88 36653
p 89 37102
p 90 37551
p 91 38000
p 92 38449
p 93 38898
p 94 39347
p 95 39796
p 96 40245
p 97 40694
p 98 41143
p 99 41592
p 100 42041
p 101 42490
p 102 42939
p 103 43388
p 104 43837
p 105 44286
p 106 44735
p 107 45184
p 108 45633
p 109 46082
p 110 46531
p 111 46980
p 112 47429
p 113 47878
p 114 48327
p 115 48776
p 116 49225
p 117 49674
p 118 50123
p 119 50572
p 120 51021
p 121 51470
p 122 51919
p 123 52368
p 124 52817
p 125 53266
p 126 53715
p 127 54164
x 3 34
x 4 97
x 5 222
x 6 355
x 7 571
x 8 876
x 9 1229
x 10 1630
x 11 2079
x 12 2528
x 13 2977
x 14 3426
x 15 3875
x 16 4324
x 17 4773
x 18 5222
x 19 5671
x 20 6120
x 21 6569
x 22 7018
x 23 7467
x 24 7916
x 25 8365
x 26 8814
x 27 9263
x 28 9712
x 29 10161
x 30 10610
x 31 11059
x 32 11508
x 33 11957
x 34 12406
x 35 12855
x 36 13304
x 37 13753
x 38 14202
x 39 14651
x 40 15100
x 41 15549
x 42 15998
x 43 16447
x 44 16896
x 45 17345
x 46 17794
x 47 18243
x 48 18692
x 49 19141
x 50 19590
x 51 20039
x 52 20488
x 53 20937
x 54 21386
x 55 21835
x 56 22284
x 57 22733
x 58 23182
x 59 23631
x 60 24080
x 61 24529
x 62 24978
x 63 25427
x 64 25876
x 65 26325
x 66 26774
x 67 27223
x 68 27672
x 69 28121
x 70 28570
x 71 29019
x 72 29468
x 73 29917
x 74 30366
x 75 30815
x 76 31264
x 77 31713
x 78 32162
x 79 32611
x 80 33060
x 81 33509
x 82 33958
x 83 34407
x 84 34856
x 85 35305
x 86 35754
x 87 36203
x 88 36652
x 89 37101
x 90 37550
x 91 37999
x 92 38448
x 93 38897
x 94 39346
x 95 39795
x 96 40244
x 97 40693
x 98 41142
x 99 41591
x 100 42040
x 101 42489
x 102 42938
x 103 43387
x 104 43836
x 105 44285
x 106 44734
x 107 45183
x 108 45632
x 109 46081
x 110 46530
x 111 46979
x 112 47428
x 113 47877
x 114 48326
x 115 48775
x 116 49224
x 117 49673
x 118 50122
x 119 50571
x 120 51020
x 121 51469
x 122 51918
x 123 52367
x 124 52816
x 125 53265
x 126 53714
x 127 54163
s 1 5
sdg 1 5
t 1 5
tdg 1 5
z 2 13
s 2 13
sdg 2 13
t 2 13
tdg 2 13
z 3 52
s 3 52
sdg 3 52
t 3 52
tdg 3 52
z 4 121
s 4 121
sdg 4 121
t 4 121
tdg 4 121
z 5 222
s 5 222
sdg 5 222
t 5 222
tdg 5 222
z 6 355
s 6 355
sdg 6 355
t 6 355
tdg 6 355
z 7 572
s 7 572
sdg 7 572
t 7 572
tdg 7 572
z 8 877
s 8 877
sdg 8 877
t 8 877
tdg 8 877
z 9 1230
s 9 1230
sdg 9 1230
t 9 1230
tdg 9 1230
z 10 1631
s 10 1631
sdg 10 1631
t 10 1631
tdg 10 1631
z 11 2080
s 11 2080
sdg 11 2080
t 11 2080
tdg 11 2080
z 12 2529
s 12 2529
sdg 12 2529
t 12 2529
tdg 12 2529
z 13 2978
s 13 2978
sdg 13 2978
t 13 2978
tdg 13 2978
z 14 3427
s 14 3427
sdg 14 3427
t 14 3427
tdg 14 3427
z 15 3876
s 15 3876
sdg 15 3876
t 15 3876
tdg 15 3876
z 16 4325
s 16 4325
sdg 16 4325
t 16 4325
tdg 16 4325
z 17 4774
s 17 4774
sdg 17 4774
t 17 4774
tdg 17 4774
z 18 5223
s 18 5223
sdg 18 5223
t 18 5223
tdg 18 5223
z 19 5672
s 19 5672
sdg 19 5672
t 19 5672
tdg 19 5672
z 20 6121
s 20 6121
sdg 20 6121
t 20 6121
tdg 20 6121
z 21 6570
s 21 6570
sdg 21 6570
t 21 6570
tdg 21 6570
z 22 7019
s 22 7019
sdg 22 7019
t 22 7019
tdg 22 7019
z 23 7468
s 23 7468
sdg 23 7468
t 23 7468
tdg 23 7468
z 24 7917
s 24 7917
sdg 24 7917
t 24 7917
tdg 24 7917
z 25 8366
s 25 8366
sdg 25 8366
t 25 8366
tdg 25 8366
z 26 8815
s 26 8815
sdg 26 8815
t 26 8815
tdg 26 8815
z 27 9264
s 27 9264
sdg 27 9264
t 27 9264
tdg 27 9264
z 28 9713
s 28 9713
sdg 28 9713
t 28 9713
tdg 28 9713
z 29 10162
s 29 10162
sdg 29 10162
t 29 10162
tdg 29 10162
z 30 10611
s 30 10611
sdg 30 10611
t 30 10611
tdg 30 10611
z 31 11060
s 31 11060
sdg 31 11060
t 31 11060
tdg 31 11060
z 32 11509
s 32 11509
sdg 32 11509
t 32 11509
tdg 32 11509
z 33 11958
s 33 11958
sdg 33 11958
t 33 11958
tdg 33 11958
z 34 12407
s 34 12407
sdg 34 12407
t 34 12407
tdg 34 12407
z 35 12856
s 35 12856
sdg 35 12856
t 35 12856
tdg 35 12856
z 36 13305
s 36 13305
sdg 36 13305
t 36 13305
tdg 36 13305
z 37 13754
s 37 13754
sdg 37 13754
t 37 13754
tdg 37 13754
z 38 14203
s 38 14203
sdg 38 14203
t 38 14203
tdg 38 14203
z 39 14652
s 39 14652
sdg 39 14652
t 39 14652
tdg 39 14652
z 40 15101
s 40 15101
sdg 40 15101
t 40 15101
tdg 40 15101
z 41 15550
s 41 15550
sdg 41 15550
t 41 15550
tdg 41 15550
z 42 15999
s 42 15999
sdg 42 15999
t 42 15999
tdg 42 15999
z 43 16448
s 43 16448
sdg 43 16448
t 43 16448
tdg 43 16448
z 44 16897
s 44 16897
sdg 44 16897
t 44 16897
tdg 44 16897
z 45 17346
s 45 17346
sdg 45 17346
t 45 17346
tdg 45 17346
z 46 17795
s 46 17795
sdg 46 17795
t 46 17795
tdg 46 17795
z 47 18244
s 47 18244
sdg 47 18244
t 47 18244
tdg 47 18244
z 48 18693
s 48 18693
sdg 48 18693
t 48 18693
tdg 48 18693
z 49 19142
s 49 19142
sdg 49 19142
t 49 19142
tdg 49 19142
z 50 19591
s 50 19591
sdg 50 19591
t 50 19591
tdg 50 19591
z 51 20040
s 51 20040
sdg 51 20040
t 51 20040
tdg 51 20040
z 52 20489
s 52 20489
sdg 52 20489
t 52 20489
tdg 52 20489
z 53 20938
s 53 20938
sdg 53 20938
t 53 20938
tdg 53 20938
z 54 21387
s 54 21387
sdg 54 21387
t 54 21387
tdg 54 21387
z 55 21836
s 55 21836
sdg 55 21836
t 55 21836
tdg 55 21836
z 56 22285
s 56 22285
sdg 56 22285
t 56 22285
tdg 56 22285
z 57 22734
s 57 22734
sdg 57 22734
t 57 22734
tdg 57 22734
z 58 23183
s 58 23183
sdg 58 23183
t 58 23183
tdg 58 23183
z 59 23632
s 59 23632
sdg 59 23632
t 59 23632
tdg 59 23632
z 60 24081
s 60 24081
sdg 60 24081
t 60 24081
tdg 60 24081
z 61 24530
s 61 24530
sdg 61 24530
t 61 24530
tdg 61 24530
z 62 24979
s 62 24979
sdg 62 24979
t 62 24979
tdg 62 24979
z 63 25428
s 63 25428
sdg 63 25428
t 63 25428
tdg 63 25428
z 64 25877
s 64 25877
sdg 64 25877
t 64 25877
tdg 64 25877
z 65 26326
s 65 26326
sdg 65 26326
t 65 26326
tdg 65 26326
z 66 26775
s 66 26775
sdg 66 26775
t 66 26775
tdg 66 26775
z 67 27224
s 67 27224
sdg 67 27224
t 67 27224
tdg 67 27224
z 68 27673
s 68 27673
sdg 68 27673
t 68 27673
tdg 68 27673
z 69 28122
s 69 28122
sdg 69 28122
t 69 28122
tdg 69 28122
z 70 28571
s 70 28571
sdg 70 28571
t 70 28571
tdg 70 28571
z 71 29020
s 71 29020
sdg 71 29020
t 71 29020
tdg 71 29020
z 72 29469
s 72 29469
sdg 72 29469
t 72 29469
tdg 72 29469
z 73 29918
s 73 29918
sdg 73 29918
t 73 29918
tdg 73 29918
z 74 30367
s 74 30367
sdg 74 30367
t 74 30367
tdg 74 30367
z 75 30816
s 75 30816
sdg 75 30816
t 75 30816
tdg 75 30816
z 76 31265
s 76 31265
sdg 76 31265
t 76 31265
tdg 76 31265
z 77 31714
s 77 31714
sdg 77 31714
t 77 31714
tdg 77 31714
z 78 32163
s 78 32163
sdg 78 32163
t 78 32163
tdg 78 32163
z 79 32612
s 79 32612
sdg 79 32612
t 79 32612
tdg 79 32612
z 80 33061
s 80 33061
sdg 80 33061
t 80 33061
tdg 80 33061
z 81 33510
s 81 33510
sdg 81 33510
t 81 33510
tdg 81 33510
z 82 33959
s 82 33959
sdg 82 33959
t 82 33959
tdg 82 33959
z 83 34408
s 83 34408
sdg 83 34408
t 83 34408
tdg 83 34408
z 84 34857
s 84 34857
sdg 84 34857
t 84 34857
tdg 84 34857
z 85 35306
s 85 35306
sdg 85 35306
t 85 35306
tdg 85 35306
z 86 35755
s 86 35755
sdg 86 35755
t 86 35755
tdg 86 35755
z 87 36204
s 87 36204
sdg 87 36204
t 87 36204
tdg 87 36204
z 88 36653
s 88 36653
sdg 88 36653
t 88 36653
tdg 88 36653
z 89 37102
s 89 37102
sdg 89 37102
t 89 37102
tdg 89 37102
z 90 37551
s 90 37551
sdg 90 37551
t 90 37551
tdg 90 37551
z 91 38000
s 91 38000
sdg 91 38000
t 91 38000
tdg 91 38000
z 92 38449
s 92 38449
sdg 92 38449
t 92 38449
tdg 92 38449
z 93 38898
s 93 38898
sdg 93 38898
t 93 38898
tdg 93 38898
z 94 39347
s 94 39347
sdg 94 39347
t 94 39347
tdg 94 39347
z 95 39796
s 95 39796
sdg 95 39796
t 95 39796
tdg 95 39796
z 96 40245
s 96 40245
sdg 96 40245
t 96 40245
tdg 96 40245
z 97 40694
s 97 40694
sdg 97 40694
t 97 40694
tdg 97 40694
z 98 41143
s 98 41143
sdg 98 41143
t 98 41143
tdg 98 41143
z 99 41592
s 99 41592
sdg 99 41592
t 99 41592
tdg 99 41592
z 100 42041
s 100 42041
sdg 100 42041
t 100 42041
tdg 100 42041
z 101 42490
s 101 42490
sdg 101 42490
t 101 42490
tdg 101 42490
z 102 42939
s 102 42939
sdg 102 42939
t 102 42939
tdg 102 42939
z 103 43388
s 103 43388
sdg 103 43388
t 103 43388
tdg 103 43388
z 104 43837
s 104 43837
sdg 104 43837
t 104 43837
tdg 104 43837
z 105 44286
s 105 44286
sdg 105 44286
t 105 44286
tdg 105 44286
z 106 44735
s 106 44735
sdg 106 44735
t 106 44735
tdg 106 44735
z 107 45184
s 107 45184
sdg 107 45184
t 107 45184
tdg 107 45184
z 108 45633
s 108 45633
sdg 108 45633
t 108 45633
tdg 108 45633
z 109 46082
s 109 46082
sdg 109 46082
t 109 46082
tdg 109 46082
z 110 46531
s 110 46531
sdg 110 46531
t 110 46531
tdg 110 46531
z 111 46980
s 111 46980
sdg 111 46980
t 111 46980
tdg 111 46980
z 112 47429
s 112 47429
sdg 112 47429
t 112 47429
tdg 112 47429
z 113 47878
s 113 47878
sdg 113 47878
t 113 47878
tdg 113 47878
z 114 48327
s 114 48327
sdg 114 48327
t 114 48327
tdg 114 48327
z 115 48776
s 115 48776
sdg 115 48776
t 115 48776
tdg 115 48776
z 116 49225
s 116 49225
sdg 116 49225
t 116 49225
tdg 116 49225
z 117 49674
s 117 49674
sdg 117 49674
t 117 49674
tdg 117 49674
z 118 50123
s 118 50123
sdg 118 50123
t 118 50123
tdg 118 50123
z 119 50572
s 119 50572
sdg 119 50572
t 119 50572
tdg 119 50572
z 120 51021
s 120 51021
sdg 120 51021
t 120 51021
tdg 120 51021
z 121 51470
s 121 51470
sdg 121 51470
t 121 51470
tdg 121 51470
z 122 51919
s 122 51919
sdg 122 51919
t 122 51919
tdg 122 51919
z 123 52368
s 123 52368
sdg 123 52368
t 123 52368
tdg 123 52368
z 124 52817
s 124 52817
sdg 124 52817
t 124 52817
tdg 124 52817
z 125 53266
s 125 53266
sdg 125 53266
t 125 53266
tdg 125 53266
z 126 53715
s 126 53715
sdg 126 53715
t 126 53715
tdg 126 53715
z 127 54164
s 127 54164
sdg 127 54164
t 127 54164
tdg 127 54164
".

(** src/mqt/qcec/profiles/qiskit_O1_recursion.profile:1-921 *)
Definition qiskit_O1_recursion : string := "# qiskit_O1_recursion.profile, Qiskit version: 1.2.0
x 0 1
y 0 2
z 0 1
h 0 3
s 0 1
sdg 0 1
t 0 1
tdg 0 1
sx 0 1
sxdg 0 3
p 0 1
rx 0 5
ry 0 4
rz 0 1
u 0 5
swap 0 3
iswap 0 9
dcx 0 2
ecr 0 4
rxx 0 15
ryy 0 13
rzz 0 3
rzx 0 9
x 1 1
y 1 3
z 1 7
h 1 6
sx 1 10
p 1 5
rx 1 9
ry 1 10
rz 1 4
u 1 12
swap 1 20
x 2 18
p 2 13
p 3 52
p 4 121
p 5 222
p 6 355
p 7 572
p 8 877
p 9 1230
p 10 1631
p 11 2080
p 12 2529
p 13 2978
p 14 3427
p 15 3876
p 16 4325
p 17 4774
p 18 5223
p 19 5672
p 20 6121
p 21 6570
p 22 7019
p 23 7468
p 24 7917
p 25 8366
p 26 8815
p 27 9264
p 28 9713
p 29 10162
p 30 10611
p 31 11060
p 32 11509
p 33 11958
p 34 12407
p 35 12856
p 36 13305
p 37 13754
p 38 14203
p 39 14652
p 40 15101
p 41 15550
p 42 15999
p 43 16448
p 44 16897
p 45 17346
p 46 17795
p 47 18244
p 48 18693
p 49 19142
p 50 19591
p 51 20040
p 52 20489
p 53 20938
p 54 21387
p 55 21836
p 56 22285
p 57 22734
p 58 23183
p 59 23632
p 60 24081
p 61 24530
p 62 24979
p 63 25428
p 64 25877
p 65 26326
p 66 26775
p 67 27224
p 68 27673
p 69 28122
p 70 28571
p 71 29020
p 72 29469
p 73 29918
p 74 30367
p 75 30816
p 76 31265
p 77 31714
p 78 32163
p 79 32612
p 80 33061
p 81 33510
p 82 33959
p 83 34408
p 84 34857
p 85 35306
p 86 35755
p 87 36204
p 88 36653
p 89 37102
p 90 37551
p 91 38000
p 92 38449
p 93 38898
p 94 39347
p 95 39796
p 96 40245
p 97 40694
p 98 41143
p 99 41592
p 100 42041
p 101 42490
p 102 42939
p 103 43388
p 104 43837
p 105 44286
p 106 44735
p 107 45184
p 108 45633
p 109 46082
p 110 46531
p 111 46980
p 112 47429
p 113 47878
p 114 48327
p 115 48776
p 116 49225
p 117 49674
p 118 50123
p 119 50572
p 120 51021
p 121 51470
p 122 51919
p 123 52368
p 124 52817
p 125 53266
p 126 53715
p 127 54164
x 3 34
x 4 97
x 5 129
x 6 213
x 7 303
x 8 351
x 9 399
x 10 447
x 11 495
x 12 543
x 13 591
x 14 639
x 15 687
x 16 735
x 17 783
x 18 831
x 19 879
x 20 927
x 21 975
x 22 1023
x 23 1071
x 24 1119
x 25 1167
x 26 1215
x 27 1263
x 28 1311
x 29 1359
x 30 1407
x 31 1455
x 32 1503
x 33 1551
x 34 1599
x 35 1647
x 36 1695
x 37 1743
x 38 1791
x 39 1839
x 40 1887
x 41 1935
x 42 1983
x 43 2031
x 44 2079
x 45 2127
x 46 2175
x 47 2223
x 48 2271
x 49 2319
x 50 2367
x 51 2415
x 52 2463
x 53 2511
x 54 2559
x 55 2607
x 56 2655
x 57 2703
x 58 2751
x 59 2799
x 60 2847
x 61 2895
x 62 2943
x 63 2991
x 64 3039
x 65 3087
x 66 3135
x 67 3183
x 68 3231
x 69 3279
x 70 3327
x 71 3375
x 72 3423
x 73 3471
x 74 3519
x 75 3567
x 76 3615
x 77 3663
x 78 3711
x 79 3759
x 80 3807
x 81 3855
x 82 3903
x 83 3951
x 84 3999
x 85 4047
x 86 4095
x 87 4143
x 88 4191
x 89 4239
x 90 4287
x 91 4335
x 92 4383
x 93 4431
x 94 4479
x 95 4527
x 96 4575
x 97 4623
x 98 4671
x 99 4719
x 100 4767
x 101 4815
x 102 4863
x 103 4911
x 104 4959
x 105 5007
x 106 5055
x 107 5103
x 108 5151
x 109 5199
x 110 5247
x 111 5295
x 112 5343
x 113 5391
x 114 5439
x 115 5487
x 116 5535
x 117 5583
x 118 5631
x 119 5679
x 120 5727
x 121 5775
x 122 5823
x 123 5871
x 124 5919
x 125 5967
x 126 6015
x 127 6063
s 1 5
sdg 1 5
t 1 5
tdg 1 5
z 2 13
s 2 13
sdg 2 13
t 2 13
tdg 2 13
z 3 52
s 3 52
sdg 3 52
t 3 52
tdg 3 52
z 4 121
s 4 121
sdg 4 121
t 4 121
tdg 4 121
z 5 222
s 5 222
sdg 5 222
t 5 222
tdg 5 222
z 6 355
s 6 355
sdg 6 355
t 6 355
tdg 6 355
z 7 572
s 7 572
sdg 7 572
t 7 572
tdg 7 572
z 8 877
s 8 877
sdg 8 877
t 8 877
tdg 8 877
z 9 1230
s 9 1230
sdg 9 1230
t 9 1230
tdg 9 1230
z 10 1631
s 10 1631
sdg 10 1631
t 10 1631
tdg 10 1631
z 11 2080
s 11 2080
sdg 11 2080
t 11 2080
tdg 11 2080
z 12 2529
s 12 2529
sdg 12 2529
t 12 2529
tdg 12 2529
z 13 2978
s 13 2978
sdg 13 2978
t 13 2978
tdg 13 2978
z 14 3427
s 14 3427
sdg 14 3427
t 14 3427
tdg 14 3427
z 15 3876
s 15 3876
sdg 15 3876
t 15 3876
tdg 15 3876
z 16 4325
s 16 4325
sdg 16 4325
t 16 4325
tdg 16 4325
z 17 4774
s 17 4774
sdg 17 4774
t 17 4774
tdg 17 4774
z 18 5223
s 18 5223
sdg 18 5223
t 18 5223
tdg 18 5223
z 19 5672
s 19 5672
sdg 19 5672
t 19 5672
tdg 19 5672
z 20 6121
s 20 6121
sdg 20 6121
t 20 6121
tdg 20 6121
z 21 6570
s 21 6570
sdg 21 6570
t 21 6570
tdg 21 6570
z 22 7019
s 22 7019
sdg 22 7019
t 22 7019
tdg 22 7019
z 23 7468
s 23 7468
sdg 23 7468
t 23 7468
tdg 23 7468
z 24 7917
s 24 7917
sdg 24 7917
t 24 7917
tdg 24 7917
z 25 8366
s 25 8366
sdg 25 8366
t 25 8366
tdg 25 8366
z 26 8815
s 26 8815
sdg 26 8815
t 26 8815
tdg 26 8815
z 27 9264
s 27 9264
sdg 27 9264
t 27 9264
tdg 27 9264
z 28 9713
s 28 9713
sdg 28 9713
t 28 9713
tdg 28 9713
z 29 10162
s 29 10162
sdg 29 10162
t 29 10162
tdg 29 10162
z 30 10611
s 30 10611
sdg 30 10611
t 30 10611
tdg 30 10611
z 31 11060
s 31 11060
sdg 31 11060
t 31 11060
tdg 31 11060
z 32 11509
s 32 11509
sdg 32 11509
t 32 11509
tdg 32 11509
z 33 11958
s 33 11958
sdg 33 11958
t 33 11958
tdg 33 11958
z 34 12407
s 34 12407
sdg 34 12407
t 34 12407
tdg 34 12407
z 35 12856
s 35 12856
sdg 35 12856
t 35 12856
tdg 35 12856
z 36 13305
s 36 13305
sdg 36 13305
t 36 13305
tdg 36 13305
z 37 13754
s 37 13754
sdg 37 13754
t 37 13754
tdg 37 13754
z 38 14203
s 38 14203
sdg 38 14203
t 38 14203
tdg 38 14203
z 39 14652
s 39 14652
sdg 39 14652
t 39 14652
tdg 39 14652
z 40 15101
s 40 15101
sdg 40 15101
t 40 15101
tdg 40 15101
z 41 15550
s 41 15550
sdg 41 15550
t 41 15550
tdg 41 15550
z 42 15999
s 42 15999
sdg 42 15999
t 42 15999
tdg 42 15999
z 43 16448
s 43 16448
sdg 43 16448
t 43 16448
tdg 43 16448
z 44 16897
s 44 16897
sdg 44 16897
t 44 16897
tdg 44 16897
z 45 17346
s 45 17346
sdg 45 17346
t 45 17346
tdg 45 17346
z 46 17795
s 46 17795
sdg 46 17795
t 46 17795
tdg 46 17795
z 47 18244
s 47 18244
sdg 47 18244
t 47 18244
tdg 47 18244
z 48 18693
s 48 18693
sdg 48 18693
t 48 18693
tdg 48 18693
z 49 19142
s 49 19142
sdg 49 19142
t 49 19142
tdg 49 19142
z 50 19591
s 50 19591
sdg 50 19591
t 50 19591
tdg 50 19591
z 51 20040
s 51 20040
sdg 51 20040
t 51 20040
tdg 51 20040
z 52 20489
s 52 20489
sdg 52 20489
t 52 20489
tdg 52 20489
z 53 20938
s 53 20938
sdg 53 20938
t 53 20938
tdg 53 20938
z 54 21387
s 54 21387
sdg 54 21387
t 54 21387
tdg 54 21387
z 55 21836
s 55 21836
sdg 55 21836
t 55 21836
tdg 55 21836
z 56 22285
s 56 22285
sdg 56 22285
t 56 22285
tdg 56 22285
z 57 22734
s 57 22734
sdg 57 22734
t 57 22734
tdg 57 22734
z 58 23183
s 58 23183
sdg 58 23183
t 58 23183
tdg 58 23183
z 59 23632
s 59 23632
sdg 59 23632
t 59 23632
tdg 59 23632
z 60 24081
s 60 24081
sdg 60 24081
t 60 24081
tdg 60 24081
z 61 24530
s 61 24530
sdg 61 24530
t 61 24530
tdg 61 24530
z 62 24979
s 62 24979
sdg 62 24979
t 62 24979
tdg 62 24979
z 63 25428
s 63 25428
sdg 63 25428
t 63 25428
tdg 63 25428
z 64 25877
s 64 25877
sdg 64 25877
t 64 25877
tdg 64 25877
z 65 26326
s 65 26326
sdg 65 26326
t 65 26326
tdg 65 26326
z 66 26775
s 66 26775
sdg 66 26775
t 66 26775
tdg 66 26775
z 67 27224
s 67 27224
sdg 67 27224
t 67 27224
tdg 67 27224
z 68 27673
s 68 27673
sdg 68 27673
t 68 27673
tdg 68 27673
z 69 28122
s 69 28122
sdg 69 28122
t 69 28122
tdg 69 28122
z 70 28571
s 70 28571
sdg 70 28571
t 70 28571
tdg 70 28571
z 71 29020
s 71 29020
sdg 71 29020
t 71 29020
tdg 71 29020
z 72 29469
s 72 29469
sdg 72 29469
t 72 29469
tdg 72 29469
z 73 29918
s 73 29918
sdg 73 29918
t 73 29918
tdg 73 29918
z 74 30367
s 74 30367
sdg 74 30367
t 74 30367
tdg 74 30367
z 75 30816
s 75 30816
sdg 75 30816
t 75 30816
tdg 75 30816
z 76 31265
s 76 31265
sdg 76 31265
t 76 31265
tdg 76 31265
z 77 31714
s 77 31714
sdg 77 31714
t 77 31714
tdg 77 31714
z 78 32163
s 78 32163
sdg 78 32163
t 78 32163
tdg 78 32163
z 79 32612
s 79 32612
sdg 79 32612
t 79 32612
tdg 79 32612
z 80 33061
s 80 33061
sdg 80 33061
t 80 33061
tdg 80 33061
z 81 33510
s 81 33510
sdg 81 33510
t 81 33510
tdg 81 33510
z 82 33959
s 82 33959
sdg 82 33959
t 82 33959
tdg 82 33959
z 83 34408
s 83 34408
sdg 83 34408
t 83 34408
tdg 83 34408
z 84 34857
s 84 34857
sdg 84 34857
t 84 34857
tdg 84 34857
z 85 35306
s 85 35306
sdg 85 35306
t 85 35306
tdg 85 35306
z 86 35755
s 86 35755
sdg 86 35755
t 86 35755
tdg 86 35755
z 87 36204
s 87 36204
sdg 87 36204
t 87 36204
tdg 87 36204
z 88 36653
s 88 36653
sdg 88 36653
t 88 36653
tdg 88 36653
z 89 37102
s 89 37102
sdg 89 37102
t 89 37102
tdg 89 37102
z 90 37551
s 90 37551
sdg 90 37551
t 90 37551
tdg 90 37551
z 91 38000
s 91 38000
sdg 91 38000
t 91 38000
tdg 91 38000
z 92 38449
s 92 38449
sdg 92 38449
t 92 38449
tdg 92 38449
z 93 38898
s 93 38898
sdg 93 38898
t 93 38898
tdg 93 38898
z 94 39347
s 94 39347
sdg 94 39347
t 94 39347
tdg 94 39347
z 95 39796
s 95 39796
sdg 95 39796
t 95 39796
tdg 95 39796
z 96 40245
s 96 40245
sdg 96 40245
t 96 40245
tdg 96 40245
z 97 40694
s 97 40694
sdg 97 40694
t 97 40694
tdg 97 40694
z 98 41143
s 98 41143
sdg 98 41143
t 98 41143
tdg 98 41143
z 99 41592
s 99 41592
sdg 99 41592
t 99 41592
tdg 99 41592
z 100 42041
s 100 42041
sdg 100 42041
t 100 42041
tdg 100 42041
z 101 42490
s 101 42490
sdg 101 42490
t 101 42490
tdg 101 42490
z 102 42939
s 102 42939
sdg 102 42939
t 102 42939
tdg 102 42939
z 103 43388
s 103 43388
sdg 103 43388
t 103 43388
tdg 103 43388
z 104 43837
s 104 43837
sdg 104 43837
t 104 43837
tdg 104 43837
z 105 44286
s 105 44286
sdg 105 44286
t 105 44286
tdg 105 44286
z 106 44735
s 106 44735
sdg 106 44735
t 106 44735
tdg 106 44735
z 107 45184
s 107 45184
sdg 107 45184
t 107 45184
tdg 107 45184
z 108 45633
s 108 45633
sdg 108 45633
t 108 45633
tdg 108 45633
z 109 46082
s 109 46082
sdg 109 46082
t 109 46082
tdg 109 46082
z 110 46531
s 110 46531
sdg 110 46531
t 110 46531
tdg 110 46531
z 111 46980
s 111 46980
sdg 111 46980
t 111 46980
tdg 111 46980
z 112 47429
s 112 47429
sdg 112 47429
t 112 47429
tdg 112 47429
z 113 47878
s 113 47878
sdg 113 47878
t 113 47878
tdg 113 47878
z 114 48327
s 114 48327
sdg 114 48327
t 114 48327
tdg 114 48327
z 115 48776
s 115 48776
sdg 115 48776
t 115 48776
tdg 115 48776
z 116 49225
s 116 49225
sdg 116 49225
t 116 49225
tdg 116 49225
z 117 49674
s 117 49674
sdg 117 49674
t 117 49674
tdg 117 49674
z 118 50123
s 118 50123
sdg 118 50123
t 118 50123
tdg 118 50123
z 119 50572
s 119 50572
sdg 119 50572
t 119 50572
tdg 119 50572
z 120 51021
s 120 51021
sdg 120 51021
t 120 51021
tdg 120 51021
z 121 51470
s 121 51470
sdg 121 51470
t 121 51470
tdg 121 51470
z 122 51919
s 122 51919
sdg 122 51919
t 122 51919
tdg 122 51919
z 123 52368
s 123 52368
sdg 123 52368
t 123 52368
tdg 123 52368
z 124 52817
s 124 52817
sdg 124 52817
t 124 52817
tdg 124 52817
z 125 53266
s 125 53266
sdg 125 53266
t 125 53266
tdg 125 53266
z 126 53715
s 126 53715
sdg 126 53715
t 126 53715
tdg 126 53715
z 127 54164
s 127 54164
sdg 127 54164
t 127 54164
tdg 127 54164
".

(** src/mqt/qcec/profiles/qiskit_O1_v-chain.profile:1-921 *)
Definition qiskit_O1_v_chain : string := "# qiskit_O1_v-chain.profile, Qiskit version: 1.2.0
x 0 1
y 0 2
z 0 1
h 0 3
s 0 1
sdg 0 1
t 0 1
tdg 0 1
sx 0 1
sxdg 0 3
p 0 1
rx 0 5
ry 0 4
rz 0 1
u 0 5
swap 0 3
iswap 0 9
dcx 0 2
ecr 0 4
rxx 0 15
ryy 0 13
rzz 0 3
rzx 0 9
x 1 1
y 1 3
z 1 7
h 1 6
sx 1 10
p 1 5
rx 1 9
ry 1 10
rz 1 4
u 1 12
swap 1 20
x 2 18
p 2 13
p 3 52
p 4 121
p 5 222
p 6 355
p 7 572
p 8 877
p 9 1230
p 10 1631
p 11 2080
p 12 2529
p 13 2978
p 14 3427
p 15 3876
p 16 4325
p 17 4774
p 18 5223
p 19 5672
p 20 6121
p 21 6570
p 22 7019
p 23 7468
p 24 7917
p 25 8366
p 26 8815
p 27 9264
p 28 9713
p 29 10162
p 30 10611
p 31 11060
p 32 11509
p 33 11958
p 34 12407
p 35 12856
p 36 13305
p 37 13754
p 38 14203
p 39 14652
p 40 15101
p 41 15550
p 42 15999
p 43 16448
p 44 16897
p 45 17346
p 46 17795
p 47 18244
p 48 18693
p 49 19142
p 50 19591
p 51 20040
p 52 20489
p 53 20938
p 54 21387
p 55 21836
p 56 22285
p 57 22734
p 58 23183
p 59 23632
p 60 24081
p 61 24530
p 62 24979
p 63 25428
p 64 25877
p 65 26326
p 66 26775
p 67 27224
p 68 27673
p 69 28122
p 70 28571
p 71 29020
p 72 29469
p 73 29918
p 74 30367
p 75 30816
p 76 31265
p 77 31714
p 78 32163
p 79 32612
p 80 33061
p 81 33510
p 82 33959
p 83 34408
p 84 34857
p 85 35306
p 86 35755
p 87 36204
p 88 36653
p 89 37102
p 90 37551
p 91 38000
p 92 38449
p 93 38898
p 94 39347
p 95 39796
p 96 40245
p 97 40694
p 98 41143
p 99 41592
p 100 42041
p 101 42490
p 102 42939
p 103 43388
p 104 43837
p 105 44286
p 106 44735
p 107 45184
p 108 45633
p 109 46082
p 110 46531
p 111 46980
p 112 47429
p 113 47878
p 114 48327
p 115 48776
p 116 49225
p 117 49674
p 118 50123
p 119 50572
p 120 51021
p 121 51470
p 122 51919
p 123 52368
p 124 52817
p 125 53266
p 126 53715
p 127 54164
x 3 40
x 4 62
x 5 84
x 6 106
x 7 128
x 8 150
x 9 172
x 10 194
x 11 216
x 12 238
x 13 260
x 14 282
x 15 304
x 16 326
x 17 348
x 18 370
x 19 392
x 20 414
x 21 436
x 22 458
x 23 480
x 24 502
x 25 524
x 26 546
x 27 568
x 28 590
x 29 612
x 30 634
x 31 656
x 32 678
x 33 700
x 34 722
x 35 744
x 36 766
x 37 788
x 38 810
x 39 832
x 40 854
x 41 876
x 42 898
x 43 920
x 44 942
x 45 964
x 46 986
x 47 1008
x 48 1030
x 49 1052
x 50 1074
x 51 1096
x 52 1118
x 53 1140
x 54 1162
x 55 1184
x 56 1206
x 57 1228
x 58 1250
x 59 1272
x 60 1294
x 61 1316
x 62 1338
x 63 1360
x 64 1382
x 65 1404
x 66 1426
x 67 1448
x 68 1470
x 69 1492
x 70 1514
x 71 1536
x 72 1558
x 73 1580
x 74 1602
x 75 1624
x 76 1646
x 77 1668
x 78 1690
x 79 1712
x 80 1734
x 81 1756
x 82 1778
x 83 1800
x 84 1822
x 85 1844
x 86 1866
x 87 1888
x 88 1910
x 89 1932
x 90 1954
x 91 1976
x 92 1998
x 93 2020
x 94 2042
x 95 2064
x 96 2086
x 97 2108
x 98 2130
x 99 2152
x 100 2174
x 101 2196
x 102 2218
x 103 2240
x 104 2262
x 105 2284
x 106 2306
x 107 2328
x 108 2350
x 109 2372
x 110 2394
x 111 2416
x 112 2438
x 113 2460
x 114 2482
x 115 2504
x 116 2526
x 117 2548
x 118 2570
x 119 2592
x 120 2614
x 121 2636
x 122 2658
x 123 2680
x 124 2702
x 125 2724
x 126 2746
x 127 2768
s 1 5
sdg 1 5
t 1 5
tdg 1 5
z 2 13
s 2 13
sdg 2 13
t 2 13
tdg 2 13
z 3 52
s 3 52
sdg 3 52
t 3 52
tdg 3 52
z 4 121
s 4 121
sdg 4 121
t 4 121
tdg 4 121
z 5 222
s 5 222
sdg 5 222
t 5 222
tdg 5 222
z 6 355
s 6 355
sdg 6 355
t 6 355
tdg 6 355
z 7 572
s 7 572
sdg 7 572
t 7 572
tdg 7 572
z 8 877
s 8 877
sdg 8 877
t 8 877
tdg 8 877
z 9 1230
s 9 1230
sdg 9 1230
t 9 1230
tdg 9 1230
z 10 1631
s 10 1631
sdg 10 1631
t 10 1631
tdg 10 1631
z 11 2080
s 11 2080
sdg 11 2080
t 11 2080
tdg 11 2080
z 12 2529
s 12 2529
sdg 12 2529
t 12 2529
tdg 12 2529
z 13 2978
s 13 2978
sdg 13 2978
t 13 2978
tdg 13 2978
z 14 3427
s 14 3427
sdg 14 3427
t 14 3427
tdg 14 3427
z 15 3876
s 15 3876
sdg 15 3876
t 15 3876
tdg 15 3876
z 16 4325
s 16 4325
sdg 16 4325
t 16 4325
tdg 16 4325
z 17 4774
s 17 4774
sdg 17 4774
t 17 4774
tdg 17 4774
z 18 5223
s 18 5223
sdg 18 5223
t 18 5223
tdg 18 5223
z 19 5672
s 19 5672
sdg 19 5672
t 19 5672
tdg 19 5672
z 20 6121
s 20 6121
sdg 20 6121
t 20 6121
tdg 20 6121
z 21 6570
s 21 6570
sdg 21 6570
t 21 6570
tdg 21 6570
z 22 7019
s 22 7019
sdg 22 7019
t 22 7019
tdg 22 7019
z 23 7468
s 23 7468
sdg 23 7468
t 23 7468
tdg 23 7468
z 24 7917
s 24 7917
sdg 24 7917
t 24 7917
tdg 24 7917
z 25 8366
s 25 8366
sdg 25 8366
t 25 8366
tdg 25 8366
z 26 8815
s 26 8815
sdg 26 8815
t 26 8815
tdg 26 8815
z 27 9264
s 27 9264
sdg 27 9264
t 27 9264
tdg 27 9264
z 28 9713
s 28 9713
sdg 28 9713
t 28 9713
tdg 28 9713
z 29 10162
s 29 10162
sdg 29 10162
t 29 10162
tdg 29 10162
z 30 10611
s 30 10611
sdg 30 10611
t 30 10611
tdg 30 10611
z 31 11060
s 31 11060
sdg 31 11060
t 31 11060
tdg 31 11060
z 32 11509
s 32 11509
sdg 32 11509
t 32 11509
tdg 32 11509
z 33 11958
s 33 11958
sdg 33 11958
t 33 11958
tdg 33 11958
z 34 12407
s 34 12407
sdg 34 12407
t 34 12407
tdg 34 12407
z 35 12856
s 35 12856
sdg 35 12856
t 35 12856
tdg 35 12856
z 36 13305
s 36 13305
sdg 36 13305
t 36 13305
tdg 36 13305
z 37 13754
s 37 13754
sdg 37 13754
t 37 13754
tdg 37 13754
z 38 14203
s 38 14203
sdg 38 14203
t 38 14203
tdg 38 14203
z 39 14652
s 39 14652
sdg 39 14652
t 39 14652
tdg 39 14652
z 40 15101
s 40 15101
sdg 40 15101
t 40 15101
tdg 40 15101
z 41 15550
s 41 15550
sdg 41 15550
t 41 15550
tdg 41 15550
z 42 15999
s 42 15999
sdg 42 15999
t 42 15999
tdg 42 15999
z 43 16448
s 43 16448
sdg 43 16448
t 43 16448
tdg 43 16448
z 44 16897
s 44 16897
sdg 44 16897
t 44 16897
tdg 44 16897
z 45 17346
s 45 17346
sdg 45 17346
t 45 17346
tdg 45 17346
z 46 17795
s 46 17795
sdg 46 17795
t 46 17795
tdg 46 17795
z 47 18244
s 47 18244
sdg 47 18244
t 47 18244
tdg 47 18244
z 48 18693
s 48 18693
sdg 48 18693
t 48 18693
tdg 48 18693
z 49 19142
s 49 19142
sdg 49 19142
t 49 19142
tdg 49 19142
z 50 19591
s 50 19591
sdg 50 19591
t 50 19591
tdg 50 19591
z 51 20040
s 51 20040
sdg 51 20040
t 51 20040
tdg 51 20040
z 52 20489
s 52 20489
sdg 52 20489
t 52 20489
tdg 52 20489
z 53 20938
s 53 20938
sdg 53 20938
t 53 20938
tdg 53 20938
z 54 21387
s 54 21387
sdg 54 21387
t 54 21387
tdg 54 21387
z 55 21836
s 55 21836
sdg 55 21836
t 55 21836
tdg 55 21836
z 56 22285
s 56 22285
sdg 56 22285
t 56 22285
tdg 56 22285
z 57 22734
s 57 22734
sdg 57 22734
t 57 22734
tdg 57 22734
z 58 23183
s 58 23183
sdg 58 23183
t 58 23183
tdg 58 23183
z 59 23632
s 59 23632
sdg 59 23632
t 59 23632
tdg 59 23632
z 60 24081
s 60 24081
sdg 60 24081
t 60 24081
tdg 60 24081
z 61 24530
s 61 24530
sdg 61 24530
t 61 24530
tdg 61 24530
z 62 24979
s 62 24979
sdg 62 24979
t 62 24979
tdg 62 24979
z 63 25428
s 63 25428
sdg 63 25428
t 63 25428
tdg 63 25428
z 64 25877
s 64 25877
sdg 64 25877
t 64 25877
tdg 64 25877
z 65 26326
s 65 26326
sdg 65 26326
t 65 26326
tdg 65 26326
z 66 26775
s 66 26775
sdg 66 26775
t 66 26775
tdg 66 26775
z 67 27224
s 67 27224
sdg 67 27224
t 67 27224
tdg 67 27224
z 68 27673
s 68 27673
sdg 68 27673
t 68 27673
tdg 68 27673
z 69 28122
s 69 28122
sdg 69 28122
t 69 28122
tdg 69 28122
z 70 28571
s 70 28571
sdg 70 28571
t 70 28571
tdg 70 28571
z 71 29020
s 71 29020
sdg 71 29020
t 71 29020
tdg 71 29020
z 72 29469
s 72 29469
sdg 72 29469
t 72 29469
tdg 72 29469
z 73 29918
s 73 29918
sdg 73 29918
t 73 29918
tdg 73 29918
z 74 30367
s 74 30367
sdg 74 30367
t 74 30367
tdg 74 30367
z 75 30816
s 75 30816
sdg 75 30816
t 75 30816
tdg 75 30816
z 76 31265
s 76 31265
sdg 76 31265
t 76 31265
tdg 76 31265
z 77 31714
s 77 31714
sdg 77 31714
t 77 31714
tdg 77 31714
z 78 32163
s 78 32163
sdg 78 32163
t 78 32163
tdg 78 32163
z 79 32612
s 79 32612
sdg 79 32612
t 79 32612
tdg 79 32612
z 80 33061
s 80 33061
sdg 80 33061
t 80 33061
tdg 80 33061
z 81 33510
s 81 33510
sdg 81 33510
t 81 33510
tdg 81 33510
z 82 33959
s 82 33959
sdg 82 33959
t 82 33959
tdg 82 33959
z 83 34408
s 83 34408
sdg 83 34408
t 83 34408
tdg 83 34408
z 84 34857
s 84 34857
sdg 84 34857
t 84 34857
tdg 84 34857
z 85 35306
s 85 35306
sdg 85 35306
t 85 35306
tdg 85 35306
z 86 35755
s 86 35755
sdg 86 35755
t 86 35755
tdg 86 35755
z 87 36204
s 87 36204
sdg 87 36204
t 87 36204
tdg 87 36204
z 88 36653
s 88 36653
sdg 88 36653
t 88 36653
tdg 88 36653
z 89 37102
s 89 37102
sdg 89 37102
t 89 37102
tdg 89 37102
z 90 37551
s 90 37551
sdg 90 37551
t 90 37551
tdg 90 37551
z 91 38000
s 91 38000
sdg 91 38000
t 91 38000
tdg 91 38000
z 92 38449
s 92 38449
sdg 92 38449
t 92 38449
tdg 92 38449
z 93 38898
s 93 38898
sdg 93 38898
t 93 38898
tdg 93 38898
z 94 39347
s 94 39347
sdg 94 39347
t 94 39347
tdg 94 39347
z 95 39796
s 95 39796
sdg 95 39796
t 95 39796
tdg 95 39796
z 96 40245
s 96 40245
sdg 96 40245
t 96 40245
tdg 96 40245
z 97 40694
s 97 40694
sdg 97 40694
t 97 40694
tdg 97 40694
z 98 41143
s 98 41143
sdg 98 41143
t 98 41143
tdg 98 41143
z 99 41592
s 99 41592
sdg 99 41592
t 99 41592
tdg 99 41592
z 100 42041
s 100 42041
sdg 100 42041
t 100 42041
tdg 100 42041
z 101 42490
s 101 42490
sdg 101 42490
t 101 42490
tdg 101 42490
z 102 42939
s 102 42939
sdg 102 42939
t 102 42939
tdg 102 42939
z 103 43388
s 103 43388
sdg 103 43388
t 103 43388
tdg 103 43388
z 104 43837
s 104 43837
sdg 104 43837
t 104 43837
tdg 104 43837
z 105 44286
s 105 44286
sdg 105 44286
t 105 44286
tdg 105 44286
z 106 44735
s 106 44735
sdg 106 44735
t 106 44735
tdg 106 44735
z 107 45184
s 107 45184
sdg 107 45184
t 107 45184
tdg 107 45184
z 108 45633
s 108 45633
sdg 108 45633
t 108 45633
tdg 108 45633
z 109 46082
s 109 46082
sdg 109 46082
t 109 46082
tdg 109 46082
z 110 46531
s 110 46531
sdg 110 46531
t 110 46531
tdg 110 46531
z 111 46980
s 111 46980
sdg 111 46980
t 111 46980
tdg 111 46980
z 112 47429
s 112 47429
sdg 112 47429
t 112 47429
tdg 112 47429
z 113 47878
s 113 47878
sdg 113 47878
t 113 47878
tdg 113 47878
z 114 48327
s 114 48327
sdg 114 48327
t 114 48327
tdg 114 48327
z 115 48776
s 115 48776
sdg 115 48776
t 115 48776
tdg 115 48776
z 116 49225
s 116 49225
sdg 116 49225
t 116 49225
tdg 116 49225
z 117 49674
s 117 49674
sdg 117 49674
t 117 49674
tdg 117 49674
z 118 50123
s 118 50123
sdg 118 50123
t 118 50123
tdg 118 50123
z 119 50572
s 119 50572
sdg 119 50572
t 119 50572
tdg 119 50572
z 120 51021
s 120 51021
sdg 120 51021
t 120 51021
tdg 120 51021
z 121 51470
s 121 51470
sdg 121 51470
t 121 51470
tdg 121 51470
z 122 51919
s 122 51919
sdg 122 51919
t 122 51919
tdg 122 51919
z 123 52368
s 123 52368
sdg 123 52368
t 123 52368
tdg 123 52368
z 124 52817
s 124 52817
sdg 124 52817
t 124 52817
tdg 124 52817
z 125 53266
s 125 53266
sdg 125 53266
t 125 53266
tdg 125 53266
z 126 53715
s 126 53715
sdg 126 53715
t 126 53715
tdg 126 53715
z 127 54164
s 127 54164
sdg 127 54164
t 127 54164
tdg 127 54164
".

(** src/mqt/qcec/profiles/qiskit_O2_noancilla.profile:1-921 *)
Definition qiskit_O2_noancilla : string := "# qiskit_O2_noancilla.profile, Qiskit version: 1.2.0
x 0 1
y 0 2
z 0 1
h 0 3
s 0 1
sdg 0 1
t 0 1
tdg 0 1
sx 0 1
sxdg 0 3
p 0 1
rx 0 5
ry 0 4
rz 0 1
u 0 5
swap 0 0
iswap 0 9
dcx 0 2
ecr 0 4
rxx 0 14
ryy 0 12
rzz 0 3
rzx 0 9
x 1 1
y 1 3
z 1 7
h 1 6
sx 1 10
p 1 5
rx 1 9
ry 1 10
rz 1 4
u 1 12
swap 1 25
x 2 18
p 2 13
p 3 50
p 4 116
p 5 213
p 6 342
p 7 546
p 8 828
p 9 1152
p 10 1521
p 11 1932
p 12 2343
p 13 2754
p 14 3165
p 15 3576
p 16 3987
p 17 4398
p 18 4809
p 19 5220
p 20 5631
p 21 6042
p 22 6453
p 23 6864
p 24 7275
p 25 7686
p 26 8097
p 27 8508
p 28 8919
p 29 9330
p 30 9741
p 31 10152
p 32 10563
p 33 10974
p 34 11385
p 35 11796
p 36 12207
p 37 12618
p 38 13029
p 39 13440
p 40 13851
p 41 14262
p 42 14673
p 43 15084
p 44 15495
p 45 15906
p 46 16317
p 47 16728
p 48 17139
p 49 17550
p 50 17961
p 51 18372
p 52 18783
p 53 19194
p 54 19605
p 55 20016
p 56 20427
p 57 20838
p 58 21249
p 59 21660
p 60 22071
p 61 22482
p 62 22893
p 63 23304
p 64 23715
p 65 24126
p 66 24537
p 67 24948
p 68 25359
p 69 25770
p 70 26181
p 71 26592
p 72 27003
p 73 27414
p 74 27825
p 75 28236
p 76 28647
p 77 29058
p 78 29469
p 79 29880
p 80 30291
p 81 30702
p 82 31113
p 83 31524
p 84 31935
p 85 32346
p 86 32757
p 87 33168
p 88 33579
p 89 33990
p 90 34401
p 91 34812
p 92 35223
p 93 35634
p 94 36045
p 95 36456
p 96 36867
p 97 37278
p 98 37689
p 99 38100
p 100 38511
p 101 38922
p 102 39333
p 103 39744
p 104 40155
p 105 40566
p 106 40977
p 107 41388
p 108 41799
p 109 42210
p 110 42621
p 111 43032
p 112 43443
p 113 43854
p 114 44265
p 115 44676
p 116 45087
p 117 45498
p 118 45909
p 119 46320
p 120 46731
p 121 47142
p 122 47553
p 123 47964
p 124 48375
p 125 48786
p 126 49197
p 127 49608
x 3 34
x 4 95
x 5 213
x 6 342
x 7 545
x 8 827
x 9 1151
x 10 1520
x 11 1931
x 12 2342
x 13 2753
x 14 3164
x 15 3575
x 16 3986
x 17 4397
x 18 4808
x 19 5219
x 20 5630
x 21 6041
x 22 6452
x 23 6863
x 24 7274
x 25 7685
x 26 8096
x 27 8507
x 28 8918
x 29 9329
x 30 9740
x 31 10151
x 32 10562
x 33 10973
x 34 11384
x 35 11795
x 36 12206
x 37 12617
x 38 13028
x 39 13439
x 40 13850
x 41 14261
x 42 14672
x 43 15083
x 44 15494
x 45 15905
x 46 16316
x 47 16727
x 48 17138
x 49 17549
x 50 17960
x 51 18371
x 52 18782
x 53 19193
x 54 19604
x 55 20015
x 56 20426
x 57 20837
x 58 21248
x 59 21659
x 60 22070
x 61 22481
x 62 22892
x 63 23303
x 64 23714
x 65 24125
x 66 24536
x 67 24947
x 68 25358
x 69 25769
x 70 26180
x 71 26591
x 72 27002
x 73 27413
x 74 27824
x 75 28235
x 76 28646
x 77 29057
x 78 29468
x 79 29879
x 80 30290
x 81 30701
x 82 31112
x 83 31523
x 84 31934
x 85 32345
x 86 32756
x 87 33167
x 88 33578
x 89 33989
x 90 34400
x 91 34811
x 92 35222
x 93 35633
x 94 36044
x 95 36455
x 96 36866
x 97 37277
x 98 37688
x 99 38099
x 100 38510
x 101 38921
x 102 39332
x 103 39743
x 104 40154
x 105 40565
x 106 40976
x 107 41387
x 108 41798
x 109 42209
x 110 42620
x 111 43031
x 112 43442
x 113 43853
x 114 44264
x 115 44675
x 116 45086
x 117 45497
x 118 45908
x 119 46319
x 120 46730
x 121 47141
x 122 47552
x 123 47963
x 124 48374
x 125 48785
x 126 49196
x 127 49607
s 1 5
sdg 1 5
t 1 5
tdg 1 5
z 2 13
s 2 13
sdg 2 13
t 2 13
tdg 2 13
z 3 50
s 3 50
sdg 3 50
t 3 50
tdg 3 50
z 4 116
s 4 116
sdg 4 116
t 4 116
tdg 4 116
z 5 213
s 5 213
sdg 5 213
t 5 213
tdg 5 213
z 6 342
s 6 342
sdg 6 342
t 6 342
tdg 6 342
z 7 546
s 7 546
sdg 7 546
t 7 546
tdg 7 546
z 8 828
s 8 828
sdg 8 828
t 8 828
tdg 8 828
z 9 1152
s 9 1152
sdg 9 1152
t 9 1152
tdg 9 1152
z 10 1521
s 10 1521
sdg 10 1521
t 10 1521
tdg 10 1521
z 11 1932
s 11 1932
sdg 11 1932
t 11 1932
tdg 11 1932
z 12 2343
s 12 2343
sdg 12 2343
t 12 2343
tdg 12 2343
z 13 2754
s 13 2754
sdg 13 2754
t 13 2754
tdg 13 2754
z 14 3165
s 14 3165
sdg 14 3165
t 14 3165
tdg 14 3165
z 15 3576
s 15 3576
sdg 15 3576
t 15 3576
tdg 15 3576
z 16 3987
s 16 3987
sdg 16 3987
t 16 3987
tdg 16 3987
z 17 4398
s 17 4398
sdg 17 4398
t 17 4398
tdg 17 4398
z 18 4809
s 18 4809
sdg 18 4809
t 18 4809
tdg 18 4809
z 19 5220
s 19 5220
sdg 19 5220
t 19 5220
tdg 19 5220
z 20 5631
s 20 5631
sdg 20 5631
t 20 5631
tdg 20 5631
z 21 6042
s 21 6042
sdg 21 6042
t 21 6042
tdg 21 6042
z 22 6453
s 22 6453
sdg 22 6453
t 22 6453
tdg 22 6453
z 23 6864
s 23 6864
sdg 23 6864
t 23 6864
tdg 23 6864
z 24 7275
s 24 7275
sdg 24 7275
t 24 7275
tdg 24 7275
z 25 7686
s 25 7686
sdg 25 7686
t 25 7686
tdg 25 7686
z 26 8097
s 26 8097
sdg 26 8097
t 26 8097
tdg 26 8097
z 27 8508
s 27 8508
sdg 27 8508
t 27 8508
tdg 27 8508
z 28 8919
s 28 8919
sdg 28 8919
t 28 8919
tdg 28 8919
z 29 9330
s 29 9330
sdg 29 9330
t 29 9330
tdg 29 9330
z 30 9741
s 30 9741
sdg 30 9741
t 30 9741
tdg 30 9741
z 31 10152
s 31 10152
sdg 31 10152
t 31 10152
tdg 31 10152
z 32 10563
s 32 10563
sdg 32 10563
t 32 10563
tdg 32 10563
z 33 10974
s 33 10974
sdg 33 10974
t 33 10974
tdg 33 10974
z 34 11385
s 34 11385
sdg 34 11385
t 34 11385
tdg 34 11385
z 35 11796
s 35 11796
sdg 35 11796
t 35 11796
tdg 35 11796
z 36 12207
s 36 12207
sdg 36 12207
t 36 12207
tdg 36 12207
z 37 12618
s 37 12618
sdg 37 12618
t 37 12618
tdg 37 12618
z 38 13029
s 38 13029
sdg 38 13029
t 38 13029
tdg 38 13029
z 39 13440
s 39 13440
sdg 39 13440
t 39 13440
tdg 39 13440
z 40 13851
s 40 13851
sdg 40 13851
t 40 13851
tdg 40 13851
z 41 14262
s 41 14262
sdg 41 14262
t 41 14262
tdg 41 14262
z 42 14673
s 42 14673
sdg 42 14673
t 42 14673
tdg 42 14673
z 43 15084
s 43 15084
sdg 43 15084
t 43 15084
tdg 43 15084
z 44 15495
s 44 15495
sdg 44 15495
t 44 15495
tdg 44 15495
z 45 15906
s 45 15906
sdg 45 15906
t 45 15906
tdg 45 15906
z 46 16317
s 46 16317
sdg 46 16317
t 46 16317
tdg 46 16317
z 47 16728
s 47 16728
sdg 47 16728
t 47 16728
tdg 47 16728
z 48 17139
s 48 17139
sdg 48 17139
t 48 17139
tdg 48 17139
z 49 17550
s 49 17550
sdg 49 17550
t 49 17550
tdg 49 17550
z 50 17961
s 50 17961
sdg 50 17961
t 50 17961
tdg 50 17961
z 51 18372
s 51 18372
sdg 51 18372
t 51 18372
tdg 51 18372
z 52 18783
s 52 18783
sdg 52 18783
t 52 18783
tdg 52 18783
z 53 19194
s 53 19194
sdg 53 19194
t 53 19194
tdg 53 19194
z 54 19605
s 54 19605
sdg 54 19605
t 54 19605
tdg 54 19605
z 55 20016
s 55 20016
sdg 55 20016
t 55 20016
tdg 55 20016
z 56 20427
s 56 20427
sdg 56 20427
t 56 20427
tdg 56 20427
z 57 20838
s 57 20838
sdg 57 20838
t 57 20838
tdg 57 20838
z 58 21249
s 58 21249
sdg 58 21249
t 58 21249
tdg 58 21249
z 59 21660
s 59 21660
sdg 59 21660
t 59 21660
tdg 59 21660
z 60 22071
s 60 22071
sdg 60 22071
t 60 22071
tdg 60 22071
z 61 22482
s 61 22482
sdg 61 22482
t 61 22482
tdg 61 22482
z 62 22893
s 62 22893
sdg 62 22893
t 62 22893
tdg 62 22893
z 63 23304
s 63 23304
sdg 63 23304
t 63 23304
tdg 63 23304
z 64 23715
s 64 23715
sdg 64 23715
t 64 23715
tdg 64 23715
z 65 24126
s 65 24126
sdg 65 24126
t 65 24126
tdg 65 24126
z 66 24537
s 66 24537
sdg 66 24537
t 66 24537
tdg 66 24537
z 67 24948
s 67 24948
sdg 67 24948
t 67 24948
tdg 67 24948
z 68 25359
s 68 25359
sdg 68 25359
t 68 25359
tdg 68 25359
z 69 25770
s 69 25770
sdg 69 25770
t 69 25770
tdg 69 25770
z 70 26181
s 70 26181
sdg 70 26181
t 70 26181
tdg 70 26181
z 71 26592
s 71 26592
sdg 71 26592
t 71 26592
tdg 71 26592
z 72 27003
s 72 27003
sdg 72 27003
t 72 27003
tdg 72 27003
z 73 27414
s 73 27414
sdg 73 27414
t 73 27414
tdg 73 27414
z 74 27825
s 74 27825
sdg 74 27825
t 74 27825
tdg 74 27825
z 75 28236
s 75 28236
sdg 75 28236
t 75 28236
tdg 75 28236
z 76 28647
s 76 28647
sdg 76 28647
t 76 28647
tdg 76 28647
z 77 29058
s 77 29058
sdg 77 29058
t 77 29058
tdg 77 29058
z 78 29469
s 78 29469
sdg 78 29469
t 78 29469
tdg 78 29469
z 79 29880
s 79 29880
sdg 79 29880
t 79 29880
tdg 79 29880
z 80 30291
s 80 30291
sdg 80 30291
t 80 30291
tdg 80 30291
z 81 30702
s 81 30702
sdg 81 30702
t 81 30702
tdg 81 30702
z 82 31113
s 82 31113
sdg 82 31113
t 82 31113
tdg 82 31113
z 83 31524
s 83 31524
sdg 83 31524
t 83 31524
tdg 83 31524
z 84 31935
s 84 31935
sdg 84 31935
t 84 31935
tdg 84 31935
z 85 32346
s 85 32346
sdg 85 32346
t 85 32346
tdg 85 32346
z 86 32757
s 86 32757
sdg 86 32757
t 86 32757
tdg 86 32757
z 87 33168
s 87 33168
sdg 87 33168
t 87 33168
tdg 87 33168
z 88 33579
s 88 33579
sdg 88 33579
t 88 33579
tdg 88 33579
z 89 33990
s 89 33990
sdg 89 33990
t 89 33990
tdg 89 33990
z 90 34401
s 90 34401
sdg 90 34401
t 90 34401
tdg 90 34401
z 91 34812
s 91 34812
sdg 91 34812
t 91 34812
tdg 91 34812
z 92 35223
s 92 35223
sdg 92 35223
t 92 35223
tdg 92 35223
z 93 35634
s 93 35634
sdg 93 35634
t 93 35634
tdg 93 35634
z 94 36045
s 94 36045
sdg 94 36045
t 94 36045
tdg 94 36045
z 95 36456
s 95 36456
sdg 95 36456
t 95 36456
tdg 95 36456
z 96 36867
s 96 36867
sdg 96 36867
t 96 36867
tdg 96 36867
z 97 37278
s 97 37278
sdg 97 37278
t 97 37278
tdg 97 37278
z 98 37689
s 98 37689
sdg 98 37689
t 98 37689
tdg 98 37689
z 99 38100
s 99 38100
sdg 99 38100
t 99 38100
tdg 99 38100
z 100 38511
s 100 38511
sdg 100 38511
t 100 38511
tdg 100 38511
z 101 38922
s 101 38922
sdg 101 38922
t 101 38922
tdg 101 38922
z 102 39333
s 102 39333
sdg 102 39333
t 102 39333
tdg 102 39333
z 103 39744
s 103 39744
sdg 103 39744
t 103 39744
tdg 103 39744
z 104 40155
s 104 40155
sdg 104 40155
t 104 40155
tdg 104 40155
z 105 40566
s 105 40566
sdg 105 40566
t 105 40566
tdg 105 40566
z 106 40977
s 106 40977
sdg 106 40977
t 106 40977
tdg 106 40977
z 107 41388
s 107 41388
sdg 107 41388
t 107 41388
tdg 107 41388
z 108 41799
s 108 41799
sdg 108 41799
t 108 41799
tdg 108 41799
z 109 42210
s 109 42210
sdg 109 42210
t 109 42210
tdg 109 42210
z 110 42621
s 110 42621
sdg 110 42621
t 110 42621
tdg 110 42621
z 111 43032
s 111 43032
sdg 111 43032
t 111 43032
tdg 111 43032
z 112 43443
s 112 43443
sdg 112 43443
t 112 43443
tdg 112 43443
z 113 43854
s 113 43854
sdg 113 43854
t 113 43854
tdg 113 43854
z 114 44265
s 114 44265
sdg 114 44265
t 114 44265
tdg 114 44265
z 115 44676
s 115 44676
sdg 115 44676
t 115 44676
tdg 115 44676
z 116 45087
s 116 45087
sdg 116 45087
t 116 45087
tdg 116 45087
z 117 45498
s 117 45498
sdg 117 45498
t 117 45498
tdg 117 45498
z 118 45909
s 118 45909
sdg 118 45909
t 118 45909
tdg 118 45909
z 119 46320
s 119 46320
sdg 119 46320
t 119 46320
tdg 119 46320
z 120 46731
s 120 46731
sdg 120 46731
t 120 46731
tdg 120 46731
z 121 47142
s 121 47142
sdg 121 47142
t 121 47142
tdg 121 47142
z 122 47553
s 122 47553
sdg 122 47553
t 122 47553
tdg 122 47553
z 123 47964
s 123 47964
sdg 123 47964
t 123 47964
tdg 123 47964
z 124 48375
s 124 48375
sdg 124 48375
t 124 48375
tdg 124 48375
z 125 48786
s 125 48786
sdg 125 48786
t 125 48786
tdg 125 48786
z 126 49197
s 126 49197
sdg 126 49197
t 126 49197
tdg 126 49197
z 127 49608
s 127 49608
sdg 127 49608
t 127 49608
tdg 127 49608
".

(** src/mqt/qcec/profiles/qiskit_O2_recursion.profile:1-921 *)
Definition qiskit_O2_recursion : string := "# qiskit_O2_recursion.profile, Qiskit version: 1.2.0
x 0 1
y 0 2
z 0 1
h 0 3
s 0 1
sdg 0 1
t 0 1
tdg 0 1
sx 0 1
sxdg 0 3
p 0 1
rx 0 5
ry 0 4
rz 0 1
u 0 5
swap 0 0
iswap 0 9
dcx 0 2
ecr 0 4
rxx 0 14
ryy 0 12
rzz 0 3
rzx 0 9
x 1 1
y 1 3
z 1 7
h 1 6
sx 1 10
p 1 5
rx 1 9
ry 1 10
rz 1 4
u 1 12
swap 1 25
x 2 18
p 2 13
p 3 50
p 4 116
p 5 213
p 6 342
p 7 546
p 8 828
p 9 1152
p 10 1521
p 11 1932
p 12 2343
p 13 2754
p 14 3165
p 15 3576
p 16 3987
p 17 4398
p 18 4809
p 19 5220
p 20 5631
p 21 6042
p 22 6453
p 23 6864
p 24 7275
p 25 7686
p 26 8097
p 27 8508
p 28 8919
p 29 9330
p 30 9741
p 31 10152
p 32 10563
p 33 10974
p 34 11385
p 35 11796
p 36 12207
p 37 12618
p 38 13029
p 39 13440
p 40 13851
p 41 14262
p 42 14673
p 43 15084
p 44 15495
p 45 15906
p 46 16317
p 47 16728
p 48 17139
p 49 17550
p 50 17961
p 51 18372
p 52 18783
p 53 19194
p 54 19605
p 55 20016
p 56 20427
p 57 20838
p 58 21249
p 59 21660
p 60 22071
p 61 22482
p 62 22893
p 63 23304
p 64 23715
p 65 24126
p 66 24537
p 67 24948
p 68 25359
p 69 25770
p 70 26181
p 71 26592
p 72 27003
p 73 27414
p 74 27825
p 75 28236
p 76 28647
p 77 29058
p 78 29469
p 79 29880
p 80 30291
p 81 30702
p 82 31113
p 83 31524
p 84 31935
p 85 32346
p 86 32757
p 87 33168
p 88 33579
p 89 33990
p 90 34401
p 91 34812
p 92 35223
p 93 35634
p 94 36045
p 95 36456
p 96 36867
p 97 37278
p 98 37689
p 99 38100
p 100 38511
p 101 38922
p 102 39333
p 103 39744
p 104 40155
p 105 40566
p 106 40977
p 107 41388
p 108 41799
p 109 42210
p 110 42621
p 111 43032
p 112 43443
p 113 43854
p 114 44265
p 115 44676
p 116 45087
p 117 45498
p 118 45909
p 119 46320
p 120 46731
p 121 47142
p 122 47553
p 123 47964
p 124 48375
p 125 48786
p 126 49197
p 127 49608
x 3 34
x 4 95
x 5 127
x 6 203
x 7 283
x 8 328
x 9 373
x 10 418
x 11 463
x 12 508
x 13 553
x 14 598
x 15 643
x 16 688
x 17 733
x 18 778
x 19 823
x 20 868
x 21 913
x 22 958
x 23 1003
x 24 1048
x 25 1093
x 26 1138
x 27 1183
x 28 1228
x 29 1273
x 30 1318
x 31 1363
x 32 1408
x 33 1453
x 34 1498
x 35 1543
x 36 1588
x 37 1633
x 38 1678
x 39 1723
x 40 1768
x 41 1813
x 42 1858
x 43 1903
x 44 1948
x 45 1993
x 46 2038
x 47 2083
x 48 2128
x 49 2173
x 50 2218
x 51 2263
x 52 2308
x 53 2353
x 54 2398
x 55 2443
x 56 2488
x 57 2533
x 58 2578
x 59 2623
x 60 2668
x 61 2713
x 62 2758
x 63 2803
x 64 2848
x 65 2893
x 66 2938
x 67 2983
x 68 3028
x 69 3073
x 70 3118
x 71 3163
x 72 3208
x 73 3253
x 74 3298
x 75 3343
x 76 3388
x 77 3433
x 78 3478
x 79 3523
x 80 3568
x 81 3613
x 82 3658
x 83 3703
x 84 3748
x 85 3793
x 86 3838
x 87 3883
x 88 3928
x 89 3973
x 90 4018
x 91 4063
x 92 4108
x 93 4153
x 94 4198
x 95 4243
x 96 4288
x 97 4333
x 98 4378
x 99 4423
x 100 4468
x 101 4513
x 102 4558
x 103 4603
x 104 4648
x 105 4693
x 106 4738
x 107 4783
x 108 4828
x 109 4873
x 110 4918
x 111 4963
x 112 5008
x 113 5053
x 114 5098
x 115 5143
x 116 5188
x 117 5233
x 118 5278
x 119 5323
x 120 5368
x 121 5413
x 122 5458
x 123 5503
x 124 5548
x 125 5593
x 126 5638
x 127 5683
s 1 5
sdg 1 5
t 1 5
tdg 1 5
z 2 13
s 2 13
sdg 2 13
t 2 13
tdg 2 13
z 3 50
s 3 50
sdg 3 50
t 3 50
tdg 3 50
z 4 116
s 4 116
sdg 4 116
t 4 116
tdg 4 116
z 5 213
s 5 213
sdg 5 213
t 5 213
tdg 5 213
z 6 342
s 6 342
sdg 6 342
t 6 342
tdg 6 342
z 7 546
s 7 546
sdg 7 546
t 7 546
tdg 7 546
z 8 828
s 8 828
sdg 8 828
t 8 828
tdg 8 828
z 9 1152
s 9 1152
sdg 9 1152
t 9 1152
tdg 9 1152
z 10 1521
s 10 1521
sdg 10 1521
t 10 1521
tdg 10 1521
z 11 1932
s 11 1932
sdg 11 1932
t 11 1932
tdg 11 1932
z 12 2343
s 12 2343
sdg 12 2343
t 12 2343
tdg 12 2343
z 13 2754
s 13 2754
sdg 13 2754
t 13 2754
tdg 13 2754
z 14 3165
s 14 3165
sdg 14 3165
t 14 3165
tdg 14 3165
z 15 3576
s 15 3576
sdg 15 3576
t 15 3576
tdg 15 3576
z 16 3987
s 16 3987
sdg 16 3987
t 16 3987
tdg 16 3987
z 17 4398
s 17 4398
sdg 17 4398
t 17 4398
tdg 17 4398
z 18 4809
s 18 4809
sdg 18 4809
t 18 4809
tdg 18 4809
z 19 5220
s 19 5220
sdg 19 5220
t 19 5220
tdg 19 5220
z 20 5631
s 20 5631
sdg 20 5631
t 20 5631
tdg 20 5631
z 21 6042
s 21 6042
sdg 21 6042
t 21 6042
tdg 21 6042
z 22 6453
s 22 6453
sdg 22 6453
t 22 6453
tdg 22 6453
z 23 6864
s 23 6864
sdg 23 6864
t 23 6864
tdg 23 6864
z 24 7275
s 24 7275
sdg 24 7275
t 24 7275
tdg 24 7275
z 25 7686
s 25 7686
sdg 25 7686
t 25 7686
tdg 25 7686
z 26 8097
s 26 8097
sdg 26 8097
t 26 8097
tdg 26 8097
z 27 8508
s 27 8508
sdg 27 8508
t 27 8508
tdg 27 8508
z 28 8919
s 28 8919
sdg 28 8919
t 28 8919
tdg 28 8919
z 29 9330
s 29 9330
sdg 29 9330
t 29 9330
tdg 29 9330
z 30 9741
s 30 9741
sdg 30 9741
t 30 9741
tdg 30 9741
z 31 10152
s 31 10152
sdg 31 10152
t 31 10152
tdg 31 10152
z 32 10563
s 32 10563
sdg 32 10563
t 32 10563
tdg 32 10563
z 33 10974
s 33 10974
sdg 33 10974
t 33 10974
tdg 33 10974
z 34 11385
s 34 11385
sdg 34 11385
t 34 11385
tdg 34 11385
z 35 11796
s 35 11796
sdg 35 11796
t 35 11796
tdg 35 11796
z 36 12207
s 36 12207
sdg 36 12207
t 36 12207
tdg 36 12207
z 37 12618
s 37 12618
sdg 37 12618
t 37 12618
tdg 37 12618
z 38 13029
s 38 13029
sdg 38 13029
t 38 13029
tdg 38 13029
z 39 13440
s 39 13440
sdg 39 13440
t 39 13440
tdg 39 13440
z 40 13851
s 40 13851
sdg 40 13851
t 40 13851
tdg 40 13851
z 41 14262
s 41 14262
sdg 41 14262
t 41 14262
tdg 41 14262
z 42 14673
s 42 14673
sdg 42 14673
t 42 14673
tdg 42 14673
z 43 15084
s 43 15084
sdg 43 15084
t 43 15084
tdg 43 15084
z 44 15495
s 44 15495
sdg 44 15495
t 44 15495
tdg 44 15495
z 45 15906
s 45 15906
sdg 45 15906
t 45 15906
tdg 45 15906
z 46 16317
s 46 16317
sdg 46 16317
t 46 16317
tdg 46 16317
z 47 16728
s 47 16728
sdg 47 16728
t 47 16728
tdg 47 16728
z 48 17139
s 48 17139
sdg 48 17139
t 48 17139
tdg 48 17139
z 49 17550
s 49 17550
sdg 49 17550
t 49 17550
tdg 49 17550
z 50 17961
s 50 17961
sdg 50 17961
t 50 17961
tdg 50 17961
z 51 18372
s 51 18372
sdg 51 18372
t 51 18372
tdg 51 18372
z 52 18783
s 52 18783
sdg 52 18783
t 52 18783
tdg 52 18783
z 53 19194
s 53 19194
sdg 53 19194
t 53 19194
tdg 53 19194
z 54 19605
s 54 19605
sdg 54 19605
t 54 19605
tdg 54 19605
z 55 20016
s 55 20016
sdg 55 20016
t 55 20016
tdg 55 20016
z 56 20427
s 56 20427
sdg 56 20427
t 56 20427
tdg 56 20427
z 57 20838
s 57 20838
sdg 57 20838
t 57 20838
tdg 57 20838
z 58 21249
s 58 21249
sdg 58 21249
t 58 21249
tdg 58 21249
z 59 21660
s 59 21660
sdg 59 21660
t 59 21660
tdg 59 21660
z 60 22071
s 60 22071
sdg 60 22071
t 60 22071
tdg 60 22071
z 61 22482
s 61 22482
sdg 61 22482
t 61 22482
tdg 61 22482
z 62 22893
s 62 22893
sdg 62 22893
t 62 22893
tdg 62 22893
z 63 23304
s 63 23304
sdg 63 23304
t 63 23304
tdg 63 23304
z 64 23715
s 64 23715
sdg 64 23715
t 64 23715
tdg 64 23715
z 65 24126
s 65 24126
sdg 65 24126
t 65 24126
tdg 65 24126
z 66 24537
s 66 24537
sdg 66 24537
t 66 24537
tdg 66 24537
z 67 24948
s 67 24948
sdg 67 24948
t 67 24948
tdg 67 24948
z 68 25359
s 68 25359
sdg 68 25359
t 68 25359
tdg 68 25359
z 69 25770
s 69 25770
sdg 69 25770
t 69 25770
tdg 69 25770
z 70 26181
s 70 26181
sdg 70 26181
t 70 26181
tdg 70 26181
z 71 26592
s 71 26592
sdg 71 26592
t 71 26592
tdg 71 26592
z 72 27003
s 72 27003
sdg 72 27003
t 72 27003
tdg 72 27003
z 73 27414
s 73 27414
sdg 73 27414
t 73 27414
tdg 73 27414
z 74 27825
s 74 27825
sdg 74 27825
t 74 27825
tdg 74 27825
z 75 28236
s 75 28236
sdg 75 28236
t 75 28236
tdg 75 28236
z 76 28647
s 76 28647
sdg 76 28647
t 76 28647
tdg 76 28647
z 77 29058
s 77 29058
sdg 77 29058
t 77 29058
tdg 77 29058
z 78 29469
s 78 29469
sdg 78 29469
t 78 29469
tdg 78 29469
z 79 29880
s 79 29880
sdg 79 29880
t 79 29880
tdg 79 29880
z 80 30291
s 80 30291
sdg 80 30291
t 80 30291
tdg 80 30291
z 81 30702
s 81 30702
sdg 81 30702
t 81 30702
tdg 81 30702
z 82 31113
s 82 31113
sdg 82 31113
t 82 31113
tdg 82 31113
z 83 31524
s 83 31524
sdg 83 31524
t 83 31524
tdg 83 31524
z 84 31935
s 84 31935
sdg 84 31935
t 84 31935
tdg 84 31935
z 85 32346
s 85 32346
sdg 85 32346
t 85 32346
tdg 85 32346
z 86 32757
s 86 32757
sdg 86 32757
t 86 32757
tdg 86 32757
z 87 33168
s 87 33168
sdg 87 33168
t 87 33168
tdg 87 33168
z 88 33579
s 88 33579
sdg 88 33579
t 88 33579
tdg 88 33579
z 89 33990
s 89 33990
sdg 89 33990
t 89 33990
tdg 89 33990
z 90 34401
s 90 34401
sdg 90 34401
t 90 34401
tdg 90 34401
z 91 34812
s 91 34812
sdg 91 34812
t 91 34812
tdg 91 34812
z 92 35223
s 92 35223
sdg 92 35223
t 92 35223
tdg 92 35223
z 93 35634
s 93 35634
sdg 93 35634
t 93 35634
tdg 93 35634
z 94 36045
s 94 36045
sdg 94 36045
t 94 36045
tdg 94 36045
z 95 36456
s 95 36456
sdg 95 36456
t 95 36456
tdg 95 36456
z 96 36867
s 96 36867
sdg 96 36867
t 96 36867
tdg 96 36867
z 97 37278
s 97 37278
sdg 97 37278
t 97 37278
tdg 97 37278
z 98 37689
s 98 37689
sdg 98 37689
t 98 37689
tdg 98 37689
z 99 38100
s 99 38100
sdg 99 38100
t 99 38100
tdg 99 38100
z 100 38511
s 100 38511
sdg 100 38511
t 100 38511
tdg 100 38511
z 101 38922
s 101 38922
sdg 101 38922
t 101 38922
tdg 101 38922
z 102 39333
s 102 39333
sdg 102 39333
t 102 39333
tdg 102 39333
z 103 39744
s 103 39744
sdg 103 39744
t 103 39744
tdg 103 39744
z 104 40155
s 104 40155
sdg 104 40155
t 104 40155
tdg 104 40155
z 105 40566
s 105 40566
sdg 105 40566
t 105 40566
tdg 105 40566
z 106 40977
s 106 40977
sdg 106 40977
t 106 40977
tdg 106 40977
z 107 41388
s 107 41388
sdg 107 41388
t 107 41388
tdg 107 41388
z 108 41799
s 108 41799
sdg 108 41799
t 108 41799
tdg 108 41799
z 109 42210
s 109 42210
sdg 109 42210
t 109 42210
tdg 109 42210
z 110 42621
s 110 42621
sdg 110 42621
t 110 42621
tdg 110 42621
z 111 43032
s 111 43032
sdg 111 43032
t 111 43032
tdg 111 43032
z 112 43443
s 112 43443
sdg 112 43443
t 112 43443
tdg 112 43443
z 113 43854
s 113 43854
sdg 113 43854
t 113 43854
tdg 113 43854
z 114 44265
s 114 44265
sdg 114 44265
t 114 44265
tdg 114 44265
z 115 44676
s 115 44676
sdg 115 44676
t 115 44676
tdg 115 44676
z 116 45087
s 116 45087
sdg 116 45087
t 116 45087
tdg 116 45087
z 117 45498
s 117 45498
sdg 117 45498
t 117 45498
tdg 117 45498
z 118 45909
s 118 45909
sdg 118 45909
t 118 45909
tdg 118 45909
z 119 46320
s 119 46320
sdg 119 46320
t 119 46320
tdg 119 46320
z 120 46731
s 120 46731
sdg 120 46731
t 120 46731
tdg 120 46731
z 121 47142
s 121 47142
sdg 121 47142
t 121 47142
tdg 121 47142
z 122 47553
s 122 47553
sdg 122 47553
t 122 47553
tdg 122 47553
z 123 47964
s 123 47964
sdg 123 47964
t 123 47964
tdg 123 47964
z 124 48375
s 124 48375
sdg 124 48375
t 124 48375
tdg 124 48375
z 125 48786
s 125 48786
sdg 125 48786
t 125 48786
tdg 125 48786
z 126 49197
s 126 49197
sdg 126 49197
t 126 49197
tdg 126 49197
z 127 49608
s 127 49608
sdg 127 49608
t 127 49608
tdg 127 49608
".

(** src/mqt/qcec/profiles/qiskit_O2_v-chain.profile:1-921 *)
Definition qiskit_O2_v_chain : string := "# qiskit_O2_v-chain.profile, Qiskit version: 1.2.0
x 0 1
y 0 2
z 0 1
h 0 3
s 0 1
sdg 0 1
t 0 1
tdg 0 1
sx 0 1
sxdg 0 3
p 0 1
rx 0 5
ry 0 4
rz 0 1
u 0 5
swap 0 0
iswap 0 9
dcx 0 2
ecr 0 4
rxx 0 14
ryy 0 12
rzz 0 3
rzx 0 9
x 1 1
y 1 3
z 1 7
h 1 6
sx 1 10
p 1 5
rx 1 9
ry 1 10
rz 1 4
u 1 12
swap 1 25
x 2 18
p 2 13
p 3 50
p 4 116
p 5 213
p 6 342
p 7 546
p 8 828
p 9 1152
p 10 1521
p 11 1932
p 12 2343
p 13 2754
p 14 3165
p 15 3576
p 16 3987
p 17 4398
p 18 4809
p 19 5220
p 20 5631
p 21 6042
p 22 6453
p 23 6864
p 24 7275
p 25 7686
p 26 8097
p 27 8508
p 28 8919
p 29 9330
p 30 9741
p 31 10152
p 32 10563
p 33 10974
p 34 11385
p 35 11796
p 36 12207
p 37 12618
p 38 13029
p 39 13440
p 40 13851
p 41 14262
p 42 14673
p 43 15084
p 44 15495
p 45 15906
p 46 16317
p 47 16728
p 48 17139
p 49 17550
p 50 17961
p 51 18372
p 52 18783
p 53 19194
p 54 19605
p 55 20016
p 56 20427
p 57 20838
p 58 21249
p 59 21660
p 60 22071
p 61 22482
p 62 22893
p 63 23304
p 64 23715
p 65 24126
p 66 24537
p 67 24948
p 68 25359
p 69 25770
p 70 26181
p 71 26592
p 72 27003
p 73 27414
p 74 27825
p 75 28236
p 76 28647
p 77 29058
p 78 29469
p 79 29880
p 80 30291
p 81 30702
p 82 31113
p 83 31524
p 84 31935
p 85 32346
p 86 32757
p 87 33168
p 88 33579
p 89 33990
p 90 34401
p 91 34812
p 92 35223
p 93 35634
p 94 36045
p 95 36456
p 96 36867
p 97 37278
p 98 37689
p 99 38100
p 100 38511
p 101 38922
p 102 39333
p 103 39744
p 104 40155
p 105 40566
p 106 40977
p 107 41388
p 108 41799
p 109 42210
p 110 42621
p 111 43032
p 112 43443
p 113 43854
p 114 44265
p 115 44676
p 116 45087
p 117 45498
p 118 45909
p 119 46320
p 120 46731
p 121 47142
p 122 47553
p 123 47964
p 124 48375
p 125 48786
p 126 49197
p 127 49608
x 3 39
x 4 60
x 5 81
x 6 102
x 7 123
x 8 144
x 9 165
x 10 186
x 11 207
x 12 228
x 13 249
x 14 270
x 15 291
x 16 312
x 17 333
x 18 354
x 19 375
x 20 396
x 21 417
x 22 438
x 23 459
x 24 480
x 25 501
x 26 522
x 27 543
x 28 564
x 29 585
x 30 606
x 31 627
x 32 648
x 33 669
x 34 690
x 35 711
x 36 732
x 37 753
x 38 774
x 39 795
x 40 816
x 41 837
x 42 858
x 43 879
x 44 900
x 45 921
x 46 942
x 47 963
x 48 984
x 49 1005
x 50 1026
x 51 1047
x 52 1068
x 53 1089
x 54 1110
x 55 1131
x 56 1152
x 57 1173
x 58 1194
x 59 1215
x 60 1236
x 61 1257
x 62 1278
x 63 1299
x 64 1320
x 65 1341
x 66 1362
x 67 1383
x 68 1404
x 69 1425
x 70 1446
x 71 1467
x 72 1488
x 73 1509
x 74 1530
x 75 1551
x 76 1572
x 77 1593
x 78 1614
x 79 1635
x 80 1656
x 81 1677
x 82 1698
x 83 1719
x 84 1740
x 85 1761
x 86 1782
x 87 1803
x 88 1824
x 89 1845
x 90 1866
x 91 1887
x 92 1908
x 93 1929
x 94 1950
x 95 1971
x 96 1992
x 97 2013
x 98 2034
x 99 2055
x 100 2076
x 101 2097
x 102 2118
x 103 2139
x 104 2160
x 105 2181
x 106 2202
x 107 2223
x 108 2244
x 109 2265
x 110 2286
x 111 2307
x 112 2328
x 113 2349
x 114 2370
x 115 2391
x 116 2412
x 117 2433
x 118 2454
x 119 2475
x 120 2496
x 121 2517
x 122 2538
x 123 2559
x 124 2580
x 125 2601
x 126 2622
x 127 2643
s 1 5
sdg 1 5
t 1 5
tdg 1 5
z 2 13
s 2 13
sdg 2 13
t 2 13
tdg 2 13
z 3 50
s 3 50
sdg 3 50
t 3 50
tdg 3 50
z 4 116
s 4 116
sdg 4 116
t 4 116
tdg 4 116
z 5 213
s 5 213
sdg 5 213
t 5 213
tdg 5 213
z 6 342
s 6 342
sdg 6 342
t 6 342
tdg 6 342
z 7 546
s 7 546
sdg 7 546
t 7 546
tdg 7 546
z 8 828
s 8 828
sdg 8 828
t 8 828
tdg 8 828
z 9 1152
s 9 1152
sdg 9 1152
t 9 1152
tdg 9 1152
z 10 1521
s 10 1521
sdg 10 1521
t 10 1521
tdg 10 1521
z 11 1932
s 11 1932
sdg 11 1932
t 11 1932
tdg 11 1932
z 12 2343
s 12 2343
sdg 12 2343
t 12 2343
tdg 12 2343
z 13 2754
s 13 2754
sdg 13 2754
t 13 2754
tdg 13 2754
z 14 3165
s 14 3165
sdg 14 3165
t 14 3165
tdg 14 3165
z 15 3576
s 15 3576
sdg 15 3576
t 15 3576
tdg 15 3576
z 16 3987
s 16 3987
sdg 16 3987
t 16 3987
tdg 16 3987
z 17 4398
s 17 4398
sdg 17 4398
t 17 4398
tdg 17 4398
z 18 4809
s 18 4809
sdg 18 4809
t 18 4809
tdg 18 4809
z 19 5220
s 19 5220
sdg 19 5220
t 19 5220
tdg 19 5220
z 20 5631
s 20 5631
sdg 20 5631
t 20 5631
tdg 20 5631
z 21 6042
s 21 6042
sdg 21 6042
t 21 6042
tdg 21 6042
z 22 6453
s 22 6453
sdg 22 6453
t 22 6453
tdg 22 6453
z 23 6864
s 23 6864
sdg 23 6864
t 23 6864
tdg 23 6864
z 24 7275
s 24 7275
sdg 24 7275
t 24 7275
tdg 24 7275
z 25 7686
s 25 7686
sdg 25 7686
t 25 7686
tdg 25 7686
z 26 8097
s 26 8097
sdg 26 8097
t 26 8097
tdg 26 8097
z 27 8508
s 27 8508
sdg 27 8508
t 27 8508
tdg 27 8508
z 28 8919
s 28 8919
sdg 28 8919
t 28 8919
tdg 28 8919
z 29 9330
s 29 9330
sdg 29 9330
t 29 9330
tdg 29 9330
z 30 9741
s 30 9741
sdg 30 9741
t 30 9741
tdg 30 9741
z 31 10152
s 31 10152
sdg 31 10152
t 31 10152
tdg 31 10152
z 32 10563
s 32 10563
sdg 32 10563
t 32 10563
tdg 32 10563
z 33 10974
s 33 10974
sdg 33 10974
t 33 10974
tdg 33 10974
z 34 11385
s 34 11385
sdg 34 11385
t 34 11385
tdg 34 11385
z 35 11796
s 35 11796
sdg 35 11796
t 35 11796
tdg 35 11796
z 36 12207
s 36 12207
sdg 36 12207
t 36 12207
tdg 36 12207
z 37 12618
s 37 12618
sdg 37 12618
t 37 12618
tdg 37 12618
z 38 13029
s 38 13029
sdg 38 13029
t 38 13029
tdg 38 13029
z 39 13440
s 39 13440
sdg 39 13440
t 39 13440
tdg 39 13440
z 40 13851
s 40 13851
sdg 40 13851
t 40 13851
tdg 40 13851
z 41 14262
s 41 14262
sdg 41 14262
t 41 14262
tdg 41 14262
z 42 14673
s 42 14673
sdg 42 14673
t 42 14673
tdg 42 14673
z 43 15084
s 43 15084
sdg 43 15084
t 43 15084
tdg 43 15084
z 44 15495
s 44 15495
sdg 44 15495
t 44 15495
tdg 44 15495
z 45 15906
s 45 15906
sdg 45 15906
t 45 15906
tdg 45 15906
z 46 16317
s 46 16317
sdg 46 16317
t 46 16317
tdg 46 16317
z 47 16728
s 47 16728
sdg 47 16728
t 47 16728
tdg 47 16728
z 48 17139
s 48 17139
sdg 48 17139
t 48 17139
tdg 48 17139
z 49 17550
s 49 17550
sdg 49 17550
t 49 17550
tdg 49 17550
z 50 17961
s 50 17961
sdg 50 17961
t 50 17961
tdg 50 17961
z 51 18372
s 51 18372
sdg 51 18372
t 51 18372
tdg 51 18372
z 52 18783
s 52 18783
sdg 52 18783
t 52 18783
tdg 52 18783
z 53 19194
s 53 19194
sdg 53 19194
t 53 19194
tdg 53 19194
z 54 19605
s 54 19605
sdg 54 19605
t 54 19605
tdg 54 19605
z 55 20016
s 55 20016
sdg 55 20016
t 55 20016
tdg 55 20016
z 56 20427
s 56 20427
sdg 56 20427
t 56 20427
tdg 56 20427
z 57 20838
s 57 20838
sdg 57 20838
t 57 20838
tdg 57 20838
z 58 21249
s 58 21249
sdg 58 21249
t 58 21249
tdg 58 21249
z 59 21660
s 59 21660
sdg 59 21660
t 59 21660
tdg 59 21660
z 60 22071
s 60 22071
sdg 60 22071
t 60 22071
tdg 60 22071
z 61 22482
s 61 22482
sdg 61 22482
t 61 22482
tdg 61 22482
z 62 22893
s 62 22893
sdg 62 22893
t 62 22893
tdg 62 22893
z 63 23304
s 63 23304
sdg 63 23304
t 63 23304
tdg 63 23304
z 64 23715
s 64 23715
sdg 64 23715
t 64 23715
tdg 64 23715
z 65 24126
s 65 24126
sdg 65 24126
t 65 24126
tdg 65 24126
z 66 24537
s 66 24537
sdg 66 24537
t 66 24537
tdg 66 24537
z 67 24948
s 67 24948
sdg 67 24948
t 67 24948
tdg 67 24948
z 68 25359
s 68 25359
sdg 68 25359
t 68 25359
tdg 68 25359
z 69 25770
s 69 25770
sdg 69 25770
t 69 25770
tdg 69 25770
z 70 26181
s 70 26181
sdg 70 26181
t 70 26181
tdg 70 26181
z 71 26592
s 71 26592
sdg 71 26592
t 71 26592
tdg 71 26592
z 72 27003
s 72 27003
sdg 72 27003
t 72 27003
tdg 72 27003
z 73 27414
s 73 27414
sdg 73 27414
t 73 27414
tdg 73 27414
z 74 27825
s 74 27825
sdg 74 27825
t 74 27825
tdg 74 27825
z 75 28236
s 75 28236
sdg 75 28236
t 75 28236
tdg 75 28236
z 76 28647
s 76 28647
sdg 76 28647
t 76 28647
tdg 76 28647
z 77 29058
s 77 29058
sdg 77 29058
t 77 29058
tdg 77 29058
z 78 29469
s 78 29469
sdg 78 29469
t 78 29469
tdg 78 29469
z 79 29880
s 79 29880
sdg 79 29880
t 79 29880
tdg 79 29880
z 80 30291
s 80 30291
sdg 80 30291
t 80 30291
tdg 80 30291
z 81 30702
s 81 30702
sdg 81 30702
t 81 30702
tdg 81 30702
z 82 31113
s 82 31113
sdg 82 31113
t 82 31113
tdg 82 31113
z 83 31524
s 83 31524
sdg 83 31524
t 83 31524
tdg 83 31524
z 84 31935
s 84 31935
sdg 84 31935
t 84 31935
tdg 84 31935
z 85 32346
s 85 32346
sdg 85 32346
t 85 32346
tdg 85 32346
z 86 32757
s 86 32757
sdg 86 32757
t 86 32757
tdg 86 32757
z 87 33168
s 87 33168
sdg 87 33168
t 87 33168
tdg 87 33168
z 88 33579
s 88 33579
sdg 88 33579
t 88 33579
tdg 88 33579
z 89 33990
s 89 33990
sdg 89 33990
t 89 33990
tdg 89 33990
z 90 34401
s 90 34401
sdg 90 34401
t 90 34401
tdg 90 34401
z 91 34812
s 91 34812
sdg 91 34812
t 91 34812
tdg 91 34812
z 92 35223
s 92 35223
sdg 92 35223
t 92 35223
tdg 92 35223
z 93 35634
s 93 35634
sdg 93 35634
t 93 35634
tdg 93 35634
z 94 36045
s 94 36045
sdg 94 36045
t 94 36045
tdg 94 36045
z 95 36456
s 95 36456
sdg 95 36456
t 95 36456
tdg 95 36456
z 96 36867
s 96 36867
sdg 96 36867
t 96 36867
tdg 96 36867
z 97 37278
s 97 37278
sdg 97 37278
t 97 37278
tdg 97 37278
z 98 37689
s 98 37689
sdg 98 37689
t 98 37689
tdg 98 37689
z 99 38100
s 99 38100
sdg 99 38100
t 99 38100
tdg 99 38100
z 100 38511
s 100 38511
sdg 100 38511
t 100 38511
tdg 100 38511
z 101 38922
s 101 38922
sdg 101 38922
t 101 38922
tdg 101 38922
z 102 39333
s 102 39333
sdg 102 39333
t 102 39333
tdg 102 39333
z 103 39744
s 103 39744
sdg 103 39744
t 103 39744
tdg 103 39744
z 104 40155
s 104 40155
sdg 104 40155
t 104 40155
tdg 104 40155
z 105 40566
s 105 40566
sdg 105 40566
t 105 40566
tdg 105 40566
z 106 40977
s 106 40977
sdg 106 40977
t 106 40977
tdg 106 40977
z 107 41388
s 107 41388
sdg 107 41388
t 107 41388
tdg 107 41388
z 108 41799
s 108 41799
sdg 108 41799
t 108 41799
tdg 108 41799
z 109 42210
s 109 42210
sdg 109 42210
t 109 42210
tdg 109 42210
z 110 42621
s 110 42621
sdg 110 42621
t 110 42621
tdg 110 42621
z 111 43032
s 111 43032
sdg 111 43032
t 111 43032
tdg 111 43032
z 112 43443
s 112 43443
sdg 112 43443
t 112 43443
tdg 112 43443
z 113 43854
s 113 43854
sdg 113 43854
t 113 43854
tdg 113 43854
z 114 44265
s 114 44265
sdg 114 44265
t 114 44265
tdg 114 44265
z 115 44676
s 115 44676
sdg 115 44676
t 115 44676
tdg 115 44676
z 116 45087
s 116 45087
sdg 116 45087
t 116 45087
tdg 116 45087
z 117 45498
s 117 45498
sdg 117 45498
t 117 45498
tdg 117 45498
z 118 45909
s 118 45909
sdg 118 45909
t 118 45909
tdg 118 45909
z 119 46320
s 119 46320
sdg 119 46320
t 119 46320
tdg 119 46320
z 120 46731
s 120 46731
sdg 120 46731
t 120 46731
tdg 120 46731
z 121 47142
s 121 47142
sdg 121 47142
t 121 47142
tdg 121 47142
z 122 47553
s 122 47553
sdg 122 47553
t 122 47553
tdg 122 47553
z 123 47964
s 123 47964
sdg 123 47964
t 123 47964
tdg 123 47964
z 124 48375
s 124 48375
sdg 124 48375
t 124 48375
tdg 124 48375
z 125 48786
s 125 48786
sdg 125 48786
t 125 48786
tdg 125 48786
z 126 49197
s 126 49197
sdg 126 49197
t 126 49197
tdg 126 49197
z 127 49608
s 127 49608
sdg 127 49608
t 127 49608
tdg 127 49608
".

(** src/mqt/qcec/profiles/qiskit_O3_noancilla.profile:1-921 *)
Definition qiskit_O3_noancilla : string := "# qiskit_O3_noancilla.profile, Qiskit version: 1.2.0
x 0 1
y 0 2
z 0 1
h 0 3
s 0 1
sdg 0 1
t 0 1
tdg 0 1
sx 0 1
sxdg 0 3
p 0 1
rx 0 5
ry 0 4
rz 0 1
u 0 5
swap 0 0
iswap 0 9
dcx 0 2
ecr 0 4
rxx 0 14
ryy 0 12
rzz 0 3
rzx 0 9
x 1 1
y 1 3
z 1 7
h 1 6
sx 1 10
p 1 5
rx 1 9
ry 1 10
rz 1 4
u 1 12
swap 1 25
x 2 18
p 2 13
p 3 50
p 4 116
p 5 213
p 6 342
p 7 546
p 8 828
p 9 1152
p 10 1521
p 11 1932
p 12 2343
p 13 2754
p 14 3165
p 15 3576
p 16 3987
p 17 4398
p 18 4809
p 19 5220
p 20 5631
p 21 6042
p 22 6453
p 23 6864
p 24 7275
p 25 7686
p 26 8097
p 27 8508
p 28 8919
p 29 9330
p 30 9741
p 31 10152
p 32 10563
p 33 10974
p 34 11385
p 35 11796
p 36 12207
p 37 12618
p 38 13029
p 39 13440
p 40 13851
p 41 14262
p 42 14673
p 43 15084
p 44 15495
p 45 15906
p 46 16317
p 47 16728
p 48 17139
p 49 17550
p 50 17961
p 51 18372
p 52 18783
p 53 19194
p 54 19605
p 55 20016
p 56 20427
p 57 20838
p 58 21249
p 59 21660
p 60 22071
p 61 22482
p 62 22893
p 63 23304
p 64 23715
p 65 24126
p 66 24537
p 67 24948
p 68 25359
p 69 25770
p 70 26181
p 71 26592
p 72 27003
p 73 27414
p 74 27825
p 75 28236
p 76 28647
p 77 29058
p 78 29469
p 79 29880
p 80 30291
p 81 30702
p 82 31113
p 83 31524
p 84 31935
p 85 32346
p 86 32757
p 87 33168
p 88 33579
p 89 33990
p 90 34401
p 91 34812
p 92 35223
p 93 35634
p 94 36045
p 95 36456
p 96 36867
p 97 37278
p 98 37689
p 99 38100
p 100 38511
p 101 38922
p 102 39333
p 103 39744
p 104 40155
p 105 40566
p 106 40977
p 107 41388
p 108 41799
p 109 42210
p 110 42621
p 111 43032
p 112 43443
p 113 43854
p 114 44265
p 115 44676
p 116 45087
p 117 45498
p 118 45909
p 119 46320
p 120 46731
p 121 47142
p 122 47553
p 123 47964
p 124 48375
p 125 48786
p 126 49197
p 127 49608
x 3 34
x 4 95
x 5 213
x 6 342
x 7 545
x 8 827
x 9 1151
x 10 1520
x 11 1931
x 12 2342
x 13 2753
x 14 3164
x 15 3575
x 16 3986
x 17 4397
x 18 4808
x 19 5219
x 20 5630
x 21 6041
x 22 6452
x 23 6863
x 24 7274
x 25 7685
x 26 8096
x 27 8507
x 28 8918
x 29 9329
x 30 9740
x 31 10151
x 32 10562
x 33 10973
x 34 11384
x 35 11795
x 36 12206
x 37 12617
x 38 13028
x 39 13439
x 40 13850
x 41 14261
x 42 14672
x 43 15083
x 44 15494
x 45 15905
x 46 16316
x 47 16727
x 48 17138
x 49 17549
x 50 17960
x 51 18371
x 52 18782
x 53 19193
x 54 19604
x 55 20015
x 56 20426
x 57 20837
x 58 21248
x 59 21659
x 60 22070
x 61 22481
x 62 22892
x 63 23303
x 64 23714
x 65 24125
x 66 24536
x 67 24947
x 68 25358
x 69 25769
x 70 26180
x 71 26591
x 72 27002
x 73 27413
x 74 27824
x 75 28235
x 76 28646
x 77 29057
x 78 29468
x 79 29879
x 80 30290
x 81 30701
x 82 31112
x 83 31523
x 84 31934
x 85 32345
x 86 32756
x 87 33167
x 88 33578
x 89 33989
x 90 34400
x 91 34811
x 92 35222
x 93 35633
x 94 36044
x 95 36455
x 96 36866
x 97 37277
x 98 37688
x 99 38099
x 100 38510
x 101 38921
x 102 39332
x 103 39743
x 104 40154
x 105 40565
x 106 40976
x 107 41387
x 108 41798
x 109 42209
x 110 42620
x 111 43031
x 112 43442
x 113 43853
x 114 44264
x 115 44675
x 116 45086
x 117 45497
x 118 45908
x 119 46319
x 120 46730
x 121 47141
x 122 47552
x 123 47963
x 124 48374
x 125 48785
x 126 49196
x 127 49607
s 1 5
sdg 1 5
t 1 5
tdg 1 5
z 2 13
s 2 13
sdg 2 13
t 2 13
tdg 2 13
z 3 50
s 3 50
sdg 3 50
t 3 50
tdg 3 50
z 4 116
s 4 116
sdg 4 116
t 4 116
tdg 4 116
z 5 213
s 5 213
sdg 5 213
t 5 213
tdg 5 213
z 6 342
s 6 342
sdg 6 342
t 6 342
tdg 6 342
z 7 546
s 7 546
sdg 7 546
t 7 546
tdg 7 546
z 8 828
s 8 828
sdg 8 828
t 8 828
tdg 8 828
z 9 1152
s 9 1152
sdg 9 1152
t 9 1152
tdg 9 1152
z 10 1521
s 10 1521
sdg 10 1521
t 10 1521
tdg 10 1521
z 11 1932
s 11 1932
sdg 11 1932
t 11 1932
tdg 11 1932
z 12 2343
s 12 2343
sdg 12 2343
t 12 2343
tdg 12 2343
z 13 2754
s 13 2754
sdg 13 2754
t 13 2754
tdg 13 2754
z 14 3165
s 14 3165
sdg 14 3165
t 14 3165
tdg 14 3165
z 15 3576
s 15 3576
sdg 15 3576
t 15 3576
tdg 15 3576
z 16 3987
s 16 3987
sdg 16 3987
t 16 3987
tdg 16 3987
z 17 4398
s 17 4398
sdg 17 4398
t 17 4398
tdg 17 4398
z 18 4809
s 18 4809
sdg 18 4809
t 18 4809
tdg 18 4809
z 19 5220
s 19 5220
sdg 19 5220
t 19 5220
tdg 19 5220
z 20 5631
s 20 5631
sdg 20 5631
t 20 5631
tdg 20 5631
z 21 6042
s 21 6042
sdg 21 6042
t 21 6042
tdg 21 6042
z 22 6453
s 22 6453
sdg 22 6453
t 22 6453
tdg 22 6453
z 23 6864
s 23 6864
sdg 23 6864
t 23 6864
tdg 23 6864
z 24 7275
s 24 7275
sdg 24 7275
t 24 7275
tdg 24 7275
z 25 7686
s 25 7686
sdg 25 7686
t 25 7686
tdg 25 7686
z 26 8097
s 26 8097
sdg 26 8097
t 26 8097
tdg 26 8097
z 27 8508
s 27 8508
sdg 27 8508
t 27 8508
tdg 27 8508
z 28 8919
s 28 8919
sdg 28 8919
t 28 8919
tdg 28 8919
z 29 9330
s 29 9330
sdg 29 9330
t 29 9330
tdg 29 9330
z 30 9741
s 30 9741
sdg 30 9741
t 30 9741
tdg 30 9741
z 31 10152
s 31 10152
sdg 31 10152
t 31 10152
tdg 31 10152
z 32 10563
s 32 10563
sdg 32 10563
t 32 10563
tdg 32 10563
z 33 10974
s 33 10974
sdg 33 10974
t 33 10974
tdg 33 10974
z 34 11385
s 34 11385
sdg 34 11385
t 34 11385
tdg 34 11385
z 35 11796
s 35 11796
sdg 35 11796
t 35 11796
tdg 35 11796
z 36 12207
s 36 12207
sdg 36 12207
t 36 12207
tdg 36 12207
z 37 12618
s 37 12618
sdg 37 12618
t 37 12618
tdg 37 12618
z 38 13029
s 38 13029
sdg 38 13029
t 38 13029
tdg 38 13029
z 39 13440
s 39 13440
sdg 39 13440
t 39 13440
tdg 39 13440
z 40 13851
s 40 13851
sdg 40 13851
t 40 13851
tdg 40 13851
z 41 14262
s 41 14262
sdg 41 14262
t 41 14262
tdg 41 14262
z 42 14673
s 42 14673
sdg 42 14673
t 42 14673
tdg 42 14673
z 43 15084
s 43 15084
sdg 43 15084
t 43 15084
tdg 43 15084
z 44 15495
s 44 15495
sdg 44 15495
t 44 15495
tdg 44 15495
z 45 15906
s 45 15906
sdg 45 15906
t 45 15906
tdg 45 15906
z 46 16317
s 46 16317
sdg 46 16317
t 46 16317
tdg 46 16317
z 47 16728
s 47 16728
sdg 47 16728
t 47 16728
tdg 47 16728
z 48 17139
s 48 17139
sdg 48 17139
t 48 17139
tdg 48 17139
z 49 17550
s 49 17550
sdg 49 17550
t 49 17550
tdg 49 17550
z 50 17961
s 50 17961
sdg 50 17961
t 50 17961
tdg 50 17961
z 51 18372
s 51 18372
sdg 51 18372
t 51 18372
tdg 51 18372
z 52 18783
s 52 18783
sdg 52 18783
t 52 18783
tdg 52 18783
z 53 19194
s 53 19194
sdg 53 19194
t 53 19194
tdg 53 19194
z 54 19605
s 54 19605
sdg 54 19605
t 54 19605
tdg 54 19605
z 55 20016
s 55 20016
sdg 55 20016
t 55 20016
tdg 55 20016
z 56 20427
s 56 20427
sdg 56 20427
t 56 20427
tdg 56 20427
z 57 20838
s 57 20838
sdg 57 20838
t 57 20838
tdg 57 20838
z 58 21249
s 58 21249
sdg 58 21249
t 58 21249
tdg 58 21249
z 59 21660
s 59 21660
sdg 59 21660
t 59 21660
tdg 59 21660
z 60 22071
s 60 22071
sdg 60 22071
t 60 22071
tdg 60 22071
z 61 22482
s 61 22482
sdg 61 22482
t 61 22482
tdg 61 22482
z 62 22893
s 62 22893
sdg 62 22893
t 62 22893
tdg 62 22893
z 63 23304
s 63 23304
sdg 63 23304
t 63 23304
tdg 63 23304
z 64 23715
s 64 23715
sdg 64 23715
t 64 23715
tdg 64 23715
z 65 24126
s 65 24126
sdg 65 24126
t 65 24126
tdg 65 24126
z 66 24537
s 66 24537
sdg 66 24537
t 66 24537
tdg 66 24537
z 67 24948
s 67 24948
sdg 67 24948
t 67 24948
tdg 67 24948
z 68 25359
s 68 25359
sdg 68 25359
t 68 25359
tdg 68 25359
z 69 25770
s 69 25770
sdg 69 25770
t 69 25770
tdg 69 25770
z 70 26181
s 70 26181
sdg 70 26181
t 70 26181
tdg 70 26181
z 71 26592
s 71 26592
sdg 71 26592
t 71 26592
tdg 71 26592
z 72 27003
s 72 27003
sdg 72 27003
t 72 27003
tdg 72 27003
z 73 27414
s 73 27414
sdg 73 27414
t 73 27414
tdg 73 27414
z 74 27825
s 74 27825
sdg 74 27825
t 74 27825
tdg 74 27825
z 75 28236
s 75 28236
sdg 75 28236
t 75 28236
tdg 75 28236
z 76 28647
s 76 28647
sdg 76 28647
t 76 28647
tdg 76 28647
z 77 29058
s 77 29058
sdg 77 29058
t 77 29058
tdg 77 29058
z 78 29469
s 78 29469
sdg 78 29469
t 78 29469
tdg 78 29469
z 79 29880
s 79 29880
sdg 79 29880
t 79 29880
tdg 79 29880
z 80 30291
s 80 30291
sdg 80 30291
t 80 30291
tdg 80 30291
z 81 30702
s 81 30702
sdg 81 30702
t 81 30702
tdg 81 30702
z 82 31113
s 82 31113
sdg 82 31113
t 82 31113
tdg 82 31113
z 83 31524
s 83 31524
sdg 83 31524
t 83 31524
tdg 83 31524
z 84 31935
s 84 31935
sdg 84 31935
t 84 31935
tdg 84 31935
z 85 32346
s 85 32346
sdg 85 32346
t 85 32346
tdg 85 32346
z 86 32757
s 86 32757
sdg 86 32757
t 86 32757
tdg 86 32757
z 87 33168
s 87 33168
sdg 87 33168
t 87 33168
tdg 87 33168
z 88 33579
s 88 33579
sdg 88 33579
t 88 33579
tdg 88 33579
z 89 33990
s 89 33990
sdg 89 33990
t 89 33990
tdg 89 33990
z 90 34401
s 90 34401
sdg 90 34401
t 90 34401
tdg 90 34401
z 91 34812
s 91 34812
sdg 91 34812
t 91 34812
tdg 91 34812
z 92 35223
s 92 35223
sdg 92 35223
t 92 35223
tdg 92 35223
z 93 35634
s 93 35634
sdg 93 35634
t 93 35634
tdg 93 35634
z 94 36045
s 94 36045
sdg 94 36045
t 94 36045
tdg 94 36045
z 95 36456
s 95 36456
sdg 95 36456
t 95 36456
tdg 95 36456
z 96 36867
s 96 36867
sdg 96 36867
t 96 36867
tdg 96 36867
z 97 37278
s 97 37278
sdg 97 37278
t 97 37278
tdg 97 37278
z 98 37689
s 98 37689
sdg 98 37689
t 98 37689
tdg 98 37689
z 99 38100
s 99 38100
sdg 99 38100
t 99 38100
tdg 99 38100
z 100 38511
s 100 38511
sdg 100 38511
t 100 38511
tdg 100 38511
z 101 38922
s 101 38922
sdg 101 38922
t 101 38922
tdg 101 38922
z 102 39333
s 102 39333
sdg 102 39333
t 102 39333
tdg 102 39333
z 103 39744
s 103 39744
sdg 103 39744
t 103 39744
tdg 103 39744
z 104 40155
s 104 40155
sdg 104 40155
t 104 40155
tdg 104 40155
z 105 40566
s 105 40566
sdg 105 40566
t 105 40566
tdg 105 40566
z 106 40977
s 106 40977
sdg 106 40977
t 106 40977
tdg 106 40977
z 107 41388
s 107 41388
sdg 107 41388
t 107 41388
tdg 107 41388
z 108 41799
s 108 41799
sdg 108 41799
t 108 41799
tdg 108 41799
z 109 42210
s 109 42210
sdg 109 42210
t 109 42210
tdg 109 42210
z 110 42621
s 110 42621
sdg 110 42621
t 110 42621
tdg 110 42621
z 111 43032
s 111 43032
sdg 111 43032
t 111 43032
tdg 111 43032
z 112 43443
s 112 43443
sdg 112 43443
t 112 43443
tdg 112 43443
z 113 43854
s 113 43854
sdg 113 43854
t 113 43854
tdg 113 43854
z 114 44265
s 114 44265
sdg 114 44265
t 114 44265
tdg 114 44265
z 115 44676
s 115 44676
sdg 115 44676
t 115 44676
tdg 115 44676
z 116 45087
s 116 45087
sdg 116 45087
t 116 45087
tdg 116 45087
z 117 45498
s 117 45498
sdg 117 45498
t 117 45498
tdg 117 45498
z 118 45909
s 118 45909
sdg 118 45909
t 118 45909
tdg 118 45909
z 119 46320
s 119 46320
sdg 119 46320
t 119 46320
tdg 119 46320
z 120 46731
s 120 46731
sdg 120 46731
t 120 46731
tdg 120 46731
z 121 47142
s 121 47142
sdg 121 47142
t 121 47142
tdg 121 47142
z 122 47553
s 122 47553
sdg 122 47553
t 122 47553
tdg 122 47553
z 123 47964
s 123 47964
sdg 123 47964
t 123 47964
tdg 123 47964
z 124 48375
s 124 48375
sdg 124 48375
t 124 48375
tdg 124 48375
z 125 48786
s 125 48786
sdg 125 48786
t 125 48786
tdg 125 48786
z 126 49197
s 126 49197
sdg 126 49197
t 126 49197
tdg 126 49197
z 127 49608
s 127 49608
sdg 127 49608
t 127 49608
tdg 127 49608
".

(** src/mqt/qcec/profiles/qiskit_O3_recursion.profile:1-921 *)
Definition qiskit_O3_recursion : string := "# qiskit_O3_recursion.profile, Qiskit version: 1.2.0
x 0 1
y 0 2
z 0 1
h 0 3
s 0 1
sdg 0 1
t 0 1
tdg 0 1
sx 0 1
sxdg 0 3
p 0 1
rx 0 5
ry 0 4
rz 0 1
u 0 5
swap 0 0
iswap 0 9
dcx 0 2
ecr 0 4
rxx 0 14
ryy 0 12
rzz 0 3
rzx 0 9
x 1 1
y 1 3
z 1 7
h 1 6
sx 1 10
p 1 5
rx 1 9
ry 1 10
rz 1 4
u 1 12
swap 1 25
x 2 18
p 2 13
p 3 50
p 4 116
p 5 213
p 6 342
p 7 546
p 8 828
p 9 1152
p 10 1521
p 11 1932
p 12 2343
p 13 2754
p 14 3165
p 15 3576
p 16 3987
p 17 4398
p 18 4809
p 19 5220
p 20 5631
p 21 6042
p 22 6453
p 23 6864
p 24 7275
p 25 7686
p 26 8097
p 27 8508
p 28 8919
p 29 9330
p 30 9741
p 31 10152
p 32 10563
p 33 10974
p 34 11385
p 35 11796
p 36 12207
p 37 12618
p 38 13029
p 39 13440
p 40 13851
p 41 14262
p 42 14673
p 43 15084
p 44 15495
p 45 15906
p 46 16317
p 47 16728
p 48 17139
p 49 17550
p 50 17961
p 51 18372
p 52 18783
p 53 19194
p 54 19605
p 55 20016
p 56 20427
p 57 20838
p 58 21249
p 59 21660
p 60 22071
p 61 22482
p 62 22893
p 63 23304
p 64 23715
p 65 24126
p 66 24537
p 67 24948
p 68 25359
p 69 25770
p 70 26181
p 71 26592
p 72 27003
p 73 27414
p 74 27825
p 75 28236
p 76 28647
p 77 29058
p 78 29469
p 79 29880
p 80 30291
p 81 30702
p 82 31113
p 83 31524
p 84 31935
p 85 32346
p 86 32757
p 87 33168
p 88 33579
p 89 33990
p 90 34401
p 91 34812
p 92 35223
p 93 35634
p 94 36045
p 95 36456
p 96 36867
p 97 37278
p 98 37689
p 99 38100
p 100 38511
p 101 38922
p 102 39333
p 103 39744
p 104 40155
p 105 40566
p 106 40977
p 107 41388
p 108 41799
p 109 42210
p 110 42621
p 111 43032
p 112 43443
p 113 43854
p 114 44265
p 115 44676
p 116 45087
p 117 45498
p 118 45909
p 119 46320
p 120 46731
p 121 47142
p 122 47553
p 123 47964
p 124 48375
p 125 48786
p 126 49197
p 127 49608
x 3 34
x 4 95
x 5 127
x 6 203
x 7 283
x 8 328
x 9 373
x 10 418
x 11 463
x 12 508
x 13 553
x 14 598
x 15 643
x 16 688
x 17 733
x 18 778
x 19 823
x 20 868
x 21 913
x 22 958
x 23 1003
x 24 1048
x 25 1093
x 26 1138
x 27 1183
x 28 1228
x 29 1273
x 30 1318
x 31 1363
x 32 1408
x 33 1453
x 34 1498
x 35 1543
x 36 1588
x 37 1633
x 38 1678
x 39 1723
x 40 1768
x 41 1813
x 42 1858
x 43 1903
x 44 1948
x 45 1993
x 46 2038
x 47 2083
x 48 2128
x 49 2173
x 50 2218
x 51 2263
x 52 2308
x 53 2353
x 54 2398
x 55 2443
x 56 2488
x 57 2533
x 58 2578
x 59 2623
x 60 2668
x 61 2713
x 62 2758
x 63 2803
x 64 2848
x 65 2893
x 66 2938
x 67 2983
x 68 3028
x 69 3073
x 70 3118
x 71 3163
x 72 3208
x 73 3253
x 74 3298
x 75 3343
x 76 3388
x 77 3433
x 78 3478
x 79 3523
x 80 3568
x 81 3613
x 82 3658
x 83 3703
x 84 3748
x 85 3793
x 86 3838
x 87 3883
x 88 3928
x 89 3973
x 90 4018
x 91 4063
x 92 4108
x 93 4153
x 94 4198
x 95 4243
x 96 4288
x 97 4333
x 98 4378
x 99 4423
x 100 4468
x 101 4513
x 102 4558
x 103 4603
x 104 4648
x 105 4693
x 106 4738
x 107 4783
x 108 4828
x 109 4873
x 110 4918
x 111 4963
x 112 5008
x 113 5053
x 114 5098
x 115 5143
x 116 5188
x 117 5233
x 118 5278
x 119 5323
x 120 5368
x 121 5413
x 122 5458
x 123 5503
x 124 5548
x 125 5593
x 126 5638
x 127 5683
s 1 5
sdg 1 5
t 1 5
tdg 1 5
z 2 13
s 2 13
sdg 2 13
t 2 13
tdg 2 13
z 3 50
s 3 50
sdg 3 50
t 3 50
tdg 3 50
z 4 116
s 4 116
sdg 4 116
t 4 116
tdg 4 116
z 5 213
s 5 213
sdg 5 213
t 5 213
tdg 5 213
z 6 342
s 6 342
sdg 6 342
t 6 342
tdg 6 342
z 7 546
s 7 546
sdg 7 546
t 7 546
tdg 7 546
z 8 828
s 8 828
sdg 8 828
t 8 828
tdg 8 828
z 9 1152
s 9 1152
sdg 9 1152
t 9 1152
tdg 9 1152
z 10 1521
s 10 1521
sdg 10 1521
t 10 1521
tdg 10 1521
z 11 1932
s 11 1932
sdg 11 1932
t 11 1932
tdg 11 1932
z 12 2343
s 12 2343
sdg 12 2343
t 12 2343
tdg 12 2343
z 13 2754
s 13 2754
sdg 13 2754
t 13 2754
tdg 13 2754
z 14 3165
s 14 3165
sdg 14 3165
t 14 3165
tdg 14 3165
z 15 3576
s 15 3576
sdg 15 3576
t 15 3576
tdg 15 3576
z 16 3987
s 16 3987
sdg 16 3987
t 16 3987
tdg 16 3987
z 17 4398
s 17 4398
sdg 17 4398
t 17 4398
tdg 17 4398
z 18 4809
s 18 4809
sdg 18 4809
t 18 4809
tdg 18 4809
z 19 5220
s 19 5220
sdg 19 5220
t 19 5220
tdg 19 5220
z 20 5631
s 20 5631
sdg 20 5631
t 20 5631
tdg 20 5631
z 21 6042
s 21 6042
sdg 21 6042
t 21 6042
tdg 21 6042
z 22 6453
s 22 6453
sdg 22 6453
t 22 6453
tdg 22 6453
z 23 6864
s 23 6864
sdg 23 6864
t 23 6864
tdg 23 6864
z 24 7275
s 24 7275
sdg 24 7275
t 24 7275
tdg 24 7275
z 25 7686
s 25 7686
sdg 25 7686
t 25 7686
tdg 25 7686
z 26 8097
s 26 8097
sdg 26 8097
t 26 8097
tdg 26 8097
z 27 8508
s 27 8508
sdg 27 8508
t 27 8508
tdg 27 8508
z 28 8919
s 28 8919
sdg 28 8919
t 28 8919
tdg 28 8919
z 29 9330
s 29 9330
sdg 29 9330
t 29 9330
tdg 29 9330
z 30 9741
s 30 9741
sdg 30 9741
t 30 9741
tdg 30 9741
z 31 10152
s 31 10152
sdg 31 10152
t 31 10152
tdg 31 10152
z 32 10563
s 32 10563
sdg 32 10563
t 32 10563
tdg 32 10563
z 33 10974
s 33 10974
sdg 33 10974
t 33 10974
tdg 33 10974
z 34 11385
s 34 11385
sdg 34 11385
t 34 11385
tdg 34 11385
z 35 11796
s 35 11796
sdg 35 11796
t 35 11796
tdg 35 11796
z 36 12207
s 36 12207
sdg 36 12207
t 36 12207
tdg 36 12207
z 37 12618
s 37 12618
sdg 37 12618
t 37 12618
tdg 37 12618
z 38 13029
s 38 13029
sdg 38 13029
t 38 13029
tdg 38 13029
z 39 13440
s 39 13440
sdg 39 13440
t 39 13440
tdg 39 13440
z 40 13851
s 40 13851
sdg 40 13851
t 40 13851
tdg 40 13851
z 41 14262
s 41 14262
sdg 41 14262
t 41 14262
tdg 41 14262
z 42 14673
s 42 14673
sdg 42 14673
t 42 14673
tdg 42 14673
z 43 15084
s 43 15084
sdg 43 15084
t 43 15084
tdg 43 15084
z 44 15495
s 44 15495
sdg 44 15495
t 44 15495
tdg 44 15495
z 45 15906
s 45 15906
sdg 45 15906
t 45 15906
tdg 45 15906
z 46 16317
s 46 16317
sdg 46 16317
t 46 16317
tdg 46 16317
z 47 16728
s 47 16728
sdg 47 16728
t 47 16728
tdg 47 16728
z 48 17139
s 48 17139
sdg 48 17139
t 48 17139
tdg 48 17139
z 49 17550
s 49 17550
sdg 49 17550
t 49 17550
tdg 49 17550
z 50 17961
s 50 17961
sdg 50 17961
t 50 17961
tdg 50 17961
z 51 18372
s 51 18372
sdg 51 18372
t 51 18372
tdg 51 18372
z 52 18783
s 52 18783
sdg 52 18783
t 52 18783
tdg 52 18783
z 53 19194
s 53 19194
sdg 53 19194
t 53 19194
tdg 53 19194
z 54 19605
s 54 19605
sdg 54 19605
t 54 19605
tdg 54 19605
z 55 20016
s 55 20016
sdg 55 20016
t 55 20016
tdg 55 20016
z 56 20427
s 56 20427
sdg 56 20427
t 56 20427
tdg 56 20427
z 57 20838
s 57 20838
sdg 57 20838
t 57 20838
tdg 57 20838
z 58 21249
s 58 21249
sdg 58 21249
t 58 21249
tdg 58 21249
z 59 21660
s 59 21660
sdg 59 21660
t 59 21660
tdg 59 21660
z 60 22071
s 60 22071
sdg 60 22071
t 60 22071
tdg 60 22071
z 61 22482
s 61 22482
sdg 61 22482
t 61 22482
tdg 61 22482
z 62 22893
s 62 22893
sdg 62 22893
t 62 22893
tdg 62 22893
z 63 23304
s 63 23304
sdg 63 23304
t 63 23304
tdg 63 23304
z 64 23715
s 64 23715
sdg 64 23715
t 64 23715
tdg 64 23715
z 65 24126
s 65 24126
sdg 65 24126
t 65 24126
tdg 65 24126
z 66 24537
s 66 24537
sdg 66 24537
t 66 24537
tdg 66 24537
z 67 24948
s 67 24948
sdg 67 24948
t 67 24948
tdg 67 24948
z 68 25359
s 68 25359
sdg 68 25359
t 68 25359
tdg 68 25359
z 69 25770
s 69 25770
sdg 69 25770
t 69 25770
tdg 69 25770
z 70 26181
s 70 26181
sdg 70 26181
t 70 26181
tdg 70 26181
z 71 26592
s 71 26592
sdg 71 26592
t 71 26592
tdg 71 26592
z 72 27003
s 72 27003
sdg 72 27003
t 72 27003
tdg 72 27003
z 73 27414
s 73 27414
sdg 73 27414
t 73 27414
tdg 73 27414
z 74 27825
s 74 27825
sdg 74 27825
t 74 27825
tdg 74 27825
z 75 28236
s 75 28236
sdg 75 28236
t 75 28236
tdg 75 28236
z 76 28647
s 76 28647
sdg 76 28647
t 76 28647
tdg 76 28647
z 77 29058
s 77 29058
sdg 77 29058
t 77 29058
tdg 77 29058
z 78 29469
s 78 29469
sdg 78 29469
t 78 29469
tdg 78 29469
z 79 29880
s 79 29880
sdg 79 29880
t 79 29880
tdg 79 29880
z 80 30291
s 80 30291
sdg 80 30291
t 80 30291
tdg 80 30291
z 81 30702
s 81 30702
sdg 81 30702
t 81 30702
tdg 81 30702
z 82 31113
s 82 31113
sdg 82 31113
t 82 31113
tdg 82 31113
z 83 31524
s 83 31524
sdg 83 31524
t 83 31524
tdg 83 31524
z 84 31935
s 84 31935
sdg 84 31935
t 84 31935
tdg 84 31935
z 85 32346
s 85 32346
sdg 85 32346
t 85 32346
tdg 85 32346
z 86 32757
s 86 32757
sdg 86 32757
t 86 32757
tdg 86 32757
z 87 33168
s 87 33168
sdg 87 33168
t 87 33168
tdg 87 33168
z 88 33579
s 88 33579
sdg 88 33579
t 88 33579
tdg 88 33579
z 89 33990
s 89 33990
sdg 89 33990
t 89 33990
tdg 89 33990
z 90 34401
s 90 34401
sdg 90 34401
t 90 34401
tdg 90 34401
z 91 34812
s 91 34812
sdg 91 34812
t 91 34812
tdg 91 34812
z 92 35223
s 92 35223
sdg 92 35223
t 92 35223
tdg 92 35223
z 93 35634
s 93 35634
sdg 93 35634
t 93 35634
tdg 93 35634
z 94 36045
s 94 36045
sdg 94 36045
t 94 36045
tdg 94 36045
z 95 36456
s 95 36456
sdg 95 36456
t 95 36456
tdg 95 36456
z 96 36867
s 96 36867
sdg 96 36867
t 96 36867
tdg 96 36867
z 97 37278
s 97 37278
sdg 97 37278
t 97 37278
tdg 97 37278
z 98 37689
s 98 37689
sdg 98 37689
t 98 37689
tdg 98 37689
z 99 38100
s 99 38100
sdg 99 38100
t 99 38100
tdg 99 38100
z 100 38511
s 100 38511
sdg 100 38511
t 100 38511
tdg 100 38511
z 101 38922
s 101 38922
sdg 101 38922
t 101 38922
tdg 101 38922
z 102 39333
s 102 39333
sdg 102 39333
t 102 39333
tdg 102 39333
z 103 39744
s 103 39744
sdg 103 39744
t 103 39744
tdg 103 39744
z 104 40155
s 104 40155
sdg 104 40155
t 104 40155
tdg 104 40155
z 105 40566
s 105 40566
sdg 105 40566
t 105 40566
tdg 105 40566
z 106 40977
s 106 40977
sdg 106 40977
t 106 40977
tdg 106 40977
z 107 41388
s 107 41388
sdg 107 41388
t 107 41388
tdg 107 41388
z 108 41799
s 108 41799
sdg 108 41799
t 108 41799
tdg 108 41799
z 109 42210
s 109 42210
sdg 109 42210
t 109 42210
tdg 109 42210
z 110 42621
s 110 42621
sdg 110 42621
t 110 42621
tdg 110 42621
z 111 43032
s 111 43032
sdg 111 43032
t 111 43032
tdg 111 43032
z 112 43443
s 112 43443
sdg 112 43443
t 112 43443
tdg 112 43443
z 113 43854
s 113 43854
sdg 113 43854
t 113 43854
tdg 113 43854
z 114 44265
s 114 44265
sdg 114 44265
t 114 44265
tdg 114 44265
z 115 44676
s 115 44676
sdg 115 44676
t 115 44676
tdg 115 44676
z 116 45087
s 116 45087
sdg 116 45087
t 116 45087
tdg 116 45087
z 117 45498
s 117 45498
sdg 117 45498
t 117 45498
tdg 117 45498
z 118 45909
s 118 45909
sdg 118 45909
t 118 45909
tdg 118 45909
z 119 46320
s 119 46320
sdg 119 46320
t 119 46320
tdg 119 46320
z 120 46731
s 120 46731
sdg 120 46731
t 120 46731
tdg 120 46731
z 121 47142
s 121 47142
sdg 121 47142
t 121 47142
tdg 121 47142
z 122 47553
s 122 47553
sdg 122 47553
t 122 47553
tdg 122 47553
z 123 47964
s 123 47964
sdg 123 47964
t 123 47964
tdg 123 47964
z 124 48375
s 124 48375
sdg 124 48375
t 124 48375
tdg 124 48375
z 125 48786
s 125 48786
sdg 125 48786
t 125 48786
tdg 125 48786
z 126 49197
s 126 49197
sdg 126 49197
t 126 49197
tdg 126 49197
z 127 49608
s 127 49608
sdg 127 49608
t 127 49608
tdg 127 49608
".

(** src/mqt/qcec/profiles/qiskit_O3_v-chain.profile:1-921 *)
Definition qiskit_O3_v_chain : string := "# qiskit_O3_v-chain.profile, Qiskit version: 1.2.0
x 0 1
y 0 2
z 0 1
h 0 3
s 0 1
sdg 0 1
t 0 1
tdg 0 1
sx 0 1
sxdg 0 3
p 0 1
rx 0 5
ry 0 4
rz 0 1
u 0 5
swap 0 0
iswap 0 9
dcx 0 2
ecr 0 4
rxx 0 14
ryy 0 12
rzz 0 3
rzx 0 9
x 1 1
y 1 3
z 1 7
h 1 6
sx 1 10
p 1 5
rx 1 9
ry 1 10
rz 1 4
u 1 12
swap 1 25
x 2 18
p 2 13
p 3 50
p 4 116
p 5 213
p 6 342
p 7 546
p 8 828
p 9 1152
p 10 1521
p 11 1932
p 12 2343
p 13 2754
p 14 3165
p 15 3576
p 16 3987
p 17 4398
p 18 4809
p 19 5220
p 20 5631
p 21 6042
p 22 6453
p 23 6864
p 24 7275
p 25 7686
p 26 8097
p 27 8508
p 28 8919
p 29 9330
p 30 9741
p 31 10152
p 32 10563
p 33 10974
p 34 11385
p 35 11796
p 36 12207
p 37 12618
p 38 13029
p 39 13440
p 40 13851
p 41 14262
p 42 14673
p 43 15084
p 44 15495
p 45 15906
p 46 16317
p 47 16728
p 48 17139
p 49 17550
p 50 17961
p 51 18372
p 52 18783
p 53 19194
p 54 19605
p 55 20016
p 56 20427
p 57 20838
p 58 21249
p 59 21660
p 60 22071
p 61 22482
p 62 22893
p 63 23304
p 64 23715
p 65 24126
p 66 24537
p 67 24948
p 68 25359
p 69 25770
p 70 26181
p 71 26592
p 72 27003
p 73 27414
p 74 27825
p 75 28236
p 76 28647
p 77 29058
p 78 29469
p 79 29880
p 80 30291
p 81 30702
p 82 31113
p 83 31524
p 84 31935
p 85 32346
p 86 32757
p 87 33168
p 88 33579
p 89 33990
p 90 34401
p 91 34812
p 92 35223
p 93 35634
p 94 36045
p 95 36456
p 96 36867
p 97 37278
p 98 37689
p 99 38100
p 100 38511
p 101 38922
p 102 39333
p 103 39744
p 104 40155
p 105 40566
p 106 40977
p 107 41388
p 108 41799
p 109 42210
p 110 42621
p 111 43032
p 112 43443
p 113 43854
p 114 44265
p 115 44676
p 116 45087
p 117 45498
p 118 45909
p 119 46320
p 120 46731
p 121 47142
p 122 47553
p 123 47964
p 124 48375
p 125 48786
p 126 49197
p 127 49608
x 3 39
x 4 60
x 5 81
x 6 102
x 7 123
x 8 144
x 9 165
x 10 186
x 11 207
x 12 228
x 13 249
x 14 270
x 15 291
x 16 312
x 17 333
x 18 354
x 19 375
x 20 396
x 21 417
x 22 438
x 23 459
x 24 480
x 25 501
x 26 522
x 27 543
x 28 564
x 29 585
x 30 606
x 31 627
x 32 648
x 33 669
x 34 690
x 35 711
x 36 732
x 37 753
x 38 774
x 39 795
x 40 816
x 41 837
x 42 858
x 43 879
x 44 900
x 45 921
x 46 942
x 47 963
x 48 984
x 49 1005
x 50 1026
x 51 1047
x 52 1068
x 53 1089
x 54 1110
x 55 1131
x 56 1152
x 57 1173
x 58 1194
x 59 1215
x 60 1236
x 61 1257
x 62 1278
x 63 1299
x 64 1320
x 65 1341
x 66 1362
x 67 1383
x 68 1404
x 69 1425
x 70 1446
x 71 1467
x 72 1488
x 73 1509
x 74 1530
x 75 1551
x 76 1572
x 77 1593
x 78 1614
x 79 1635
x 80 1656
x 81 1677
x 82 1698
x 83 1719
x 84 1740
x 85 1761
x 86 1782
x 87 1803
x 88 1824
x 89 1845
x 90 1866
x 91 1887
x 92 1908
x 93 1929
x 94 1950
x 95 1971
x 96 1992
x 97 2013
x 98 2034
x 99 2055
x 100 2076
x 101 2097
x 102 2118
x 103 2139
x 104 2160
x 105 2181
x 106 2202
x 107 2223
x 108 2244
x 109 2265
x 110 2286
x 111 2307
x 112 2328
x 113 2349
x 114 2370
x 115 2391
x 116 2412
x 117 2433
x 118 2454
x 119 2475
x 120 2496
x 121 2517
x 122 2538
x 123 2559
x 124 2580
x 125 2601
x 126 2622
x 127 2643
s 1 5
sdg 1 5
t 1 5
tdg 1 5
z 2 13
s 2 13
sdg 2 13
t 2 13
tdg 2 13
z 3 50
s 3 50
sdg 3 50
t 3 50
tdg 3 50
z 4 116
s 4 116
sdg 4 116
t 4 116
tdg 4 116
z 5 213
s 5 213
sdg 5 213
t 5 213
tdg 5 213
z 6 342
s 6 342
sdg 6 342
t 6 342
tdg 6 342
z 7 546
s 7 546
sdg 7 546
t 7 546
tdg 7 546
z 8 828
s 8 828
sdg 8 828
t 8 828
tdg 8 828
z 9 1152
s 9 1152
sdg 9 1152
t 9 1152
tdg 9 1152
z 10 1521
s 10 1521
sdg 10 1521
t 10 1521
tdg 10 1521
z 11 1932
s 11 1932
sdg 11 1932
t 11 1932
tdg 11 1932
z 12 2343
s 12 2343
sdg 12 2343
t 12 2343
tdg 12 2343
z 13 2754
s 13 2754
sdg 13 2754
t 13 2754
tdg 13 2754
z 14 3165
s 14 3165
sdg 14 3165
t 14 3165
tdg 14 3165
z 15 3576
s 15 3576
sdg 15 3576
t 15 3576
tdg 15 3576
z 16 3987
s 16 3987
sdg 16 3987
t 16 3987
tdg 16 3987
z 17 4398
s 17 4398
sdg 17 4398
t 17 4398
tdg 17 4398
z 18 4809
s 18 4809
sdg 18 4809
t 18 4809
tdg 18 4809
z 19 5220
s 19 5220
sdg 19 5220
t 19 5220
tdg 19 5220
z 20 5631
s 20 5631
sdg 20 5631
t 20 5631
tdg 20 5631
z 21 6042
s 21 6042
sdg 21 6042
t 21 6042
tdg 21 6042
z 22 6453
s 22 6453
sdg 22 6453
t 22 6453
tdg 22 6453
z 23 6864
s 23 6864
sdg 23 6864
t 23 6864
tdg 23 6864
z 24 7275
s 24 7275
sdg 24 7275
t 24 7275
tdg 24 7275
z 25 7686
s 25 7686
sdg 25 7686
t 25 7686
tdg 25 7686
z 26 8097
s 26 8097
sdg 26 8097
t 26 8097
tdg 26 8097
z 27 8508
s 27 8508
sdg 27 8508
t 27 8508
tdg 27 8508
z 28 8919
s 28 8919
sdg 28 8919
t 28 8919
tdg 28 8919
z 29 9330
s 29 9330
sdg 29 9330
t 29 9330
tdg 29 9330
z 30 9741
s 30 9741
sdg 30 9741
t 30 9741
tdg 30 9741
z 31 10152
s 31 10152
sdg 31 10152
t 31 10152
tdg 31 10152
z 32 10563
s 32 10563
sdg 32 10563
t 32 10563
tdg 32 10563
z 33 10974
s 33 10974
sdg 33 10974
t 33 10974
tdg 33 10974
z 34 11385
s 34 11385
sdg 34 11385
t 34 11385
tdg 34 11385
z 35 11796
s 35 11796
sdg 35 11796
t 35 11796
tdg 35 11796
z 36 12207
s 36 12207
sdg 36 12207
t 36 12207
tdg 36 12207
z 37 12618
s 37 12618
sdg 37 12618
t 37 12618
tdg 37 12618
z 38 13029
s 38 13029
sdg 38 13029
t 38 13029
tdg 38 13029
z 39 13440
s 39 13440
sdg 39 13440
t 39 13440
tdg 39 13440
z 40 13851
s 40 13851
sdg 40 13851
t 40 13851
tdg 40 13851
z 41 14262
s 41 14262
sdg 41 14262
t 41 14262
tdg 41 14262
z 42 14673
s 42 14673
sdg 42 14673
t 42 14673
tdg 42 14673
z 43 15084
s 43 15084
sdg 43 15084
t 43 15084
tdg 43 15084
z 44 15495
s 44 15495
sdg 44 15495
t 44 15495
tdg 44 15495
z 45 15906
s 45 15906
sdg 45 15906
t 45 15906
tdg 45 15906
z 46 16317
s 46 16317
sdg 46 16317
t 46 16317
tdg 46 16317
z 47 16728
s 47 16728
sdg 47 16728
t 47 16728
tdg 47 16728
z 48 17139
s 48 17139
sdg 48 17139
t 48 17139
tdg 48 17139
z 49 17550
s 49 17550
sdg 49 17550
t 49 17550
tdg 49 17550
z 50 17961
s 50 17961
sdg 50 17961
t 50 17961
tdg 50 17961
z 51 18372
s 51 18372
sdg 51 18372
t 51 18372
tdg 51 18372
z 52 18783
s 52 18783
sdg 52 18783
t 52 18783
tdg 52 18783
z 53 19194
s 53 19194
sdg 53 19194
t 53 19194
tdg 53 19194
z 54 19605
s 54 19605
sdg 54 19605
t 54 19605
tdg 54 19605
z 55 20016
s 55 20016
sdg 55 20016
t 55 20016
tdg 55 20016
z 56 20427
s 56 20427
sdg 56 20427
t 56 20427
tdg 56 20427
z 57 20838
s 57 20838
sdg 57 20838
t 57 20838
tdg 57 20838
z 58 21249
s 58 21249
sdg 58 21249
t 58 21249
tdg 58 21249
z 59 21660
s 59 21660
sdg 59 21660
t 59 21660
tdg 59 21660
z 60 22071
s 60 22071
sdg 60 22071
t 60 22071
tdg 60 22071
z 61 22482
s 61 22482
sdg 61 22482
t 61 22482
tdg 61 22482
z 62 22893
s 62 22893
sdg 62 22893
t 62 22893
tdg 62 22893
z 63 23304
s 63 23304
sdg 63 23304
t 63 23304
tdg 63 23304
z 64 23715
s 64 23715
sdg 64 23715
t 64 23715
tdg 64 23715
z 65 24126
s 65 24126
sdg 65 24126
t 65 24126
tdg 65 24126
z 66 24537
s 66 24537
sdg 66 24537
t 66 24537
tdg 66 24537
z 67 24948
s 67 24948
sdg 67 24948
t 67 24948
tdg 67 24948
z 68 25359
s 68 25359
sdg 68 25359
t 68 25359
tdg 68 25359
z 69 25770
s 69 25770
sdg 69 25770
t 69 25770
tdg 69 25770
z 70 26181
s 70 26181
sdg 70 26181
t 70 26181
tdg 70 26181
z 71 26592
s 71 26592
sdg 71 26592
t 71 26592
tdg 71 26592
z 72 27003
s 72 27003
sdg 72 27003
t 72 27003
tdg 72 27003
z 73 27414
s 73 27414
sdg 73 27414
t 73 27414
tdg 73 27414
z 74 27825
s 74 27825
sdg 74 27825
t 74 27825
tdg 74 27825
z 75 28236
s 75 28236
sdg 75 28236
t 75 28236
tdg 75 28236
z 76 28647
s 76 28647
sdg 76 28647
t 76 28647
tdg 76 28647
z 77 29058
s 77 29058
sdg 77 29058
t 77 29058
tdg 77 29058
z 78 29469
s 78 29469
sdg 78 29469
t 78 29469
tdg 78 29469
z 79 29880
s 79 29880
sdg 79 29880
t 79 29880
tdg 79 29880
z 80 30291
s 80 30291
sdg 80 30291
t 80 30291
tdg 80 30291
z 81 30702
s 81 30702
sdg 81 30702
t 81 30702
tdg 81 30702
z 82 31113
s 82 31113
sdg 82 31113
t 82 31113
tdg 82 31113
z 83 31524
s 83 31524
sdg 83 31524
t 83 31524
tdg 83 31524
z 84 31935
s 84 31935
sdg 84 31935
t 84 31935
tdg 84 31935
z 85 32346
s 85 32346
sdg 85 32346
t 85 32346
tdg 85 32346
z 86 32757
s 86 32757
sdg 86 32757
t 86 32757
tdg 86 32757
z 87 33168
s 87 33168
sdg 87 33168
t 87 33168
tdg 87 33168
z 88 33579
s 88 33579
sdg 88 33579
t 88 33579
tdg 88 33579
z 89 33990
s 89 33990
sdg 89 33990
t 89 33990
tdg 89 33990
z 90 34401
s 90 34401
sdg 90 34401
t 90 34401
tdg 90 34401
z 91 34812
s 91 34812
sdg 91 34812
t 91 34812
tdg 91 34812
z 92 35223
s 92 35223
sdg 92 35223
t 92 35223
tdg 92 35223
z 93 35634
s 93 35634
sdg 93 35634
t 93 35634
tdg 93 35634
z 94 36045
s 94 36045
sdg 94 36045
t 94 36045
tdg 94 36045
z 95 36456
s 95 36456
sdg 95 36456
t 95 36456
tdg 95 36456
z 96 36867
s 96 36867
sdg 96 36867
t 96 36867
tdg 96 36867
z 97 37278
s 97 37278
sdg 97 37278
t 97 37278
tdg 97 37278
z 98 37689
s 98 37689
sdg 98 37689
t 98 37689
tdg 98 37689
z 99 38100
s 99 38100
sdg 99 38100
t 99 38100
tdg 99 38100
z 100 38511
s 100 38511
sdg 100 38511
t 100 38511
tdg 100 38511
z 101 38922
s 101 38922
sdg 101 38922
t 101 38922
tdg 101 38922
z 102 39333
s 102 39333
sdg 102 39333
t 102 39333
tdg 102 39333
z 103 39744
s 103 39744
sdg 103 39744
t 103 39744
tdg 103 39744
z 104 40155
s 104 40155
sdg 104 40155
t 104 40155
tdg 104 40155
z 105 40566
s 105 40566
sdg 105 40566
t 105 40566
tdg 105 40566
z 106 40977
s 106 40977
sdg 106 40977
t 106 40977
tdg 106 40977
z 107 41388
s 107 41388
sdg 107 41388
t 107 41388
tdg 107 41388
z 108 41799
s 108 41799
sdg 108 41799
t 108 41799
tdg 108 41799
z 109 42210
s 109 42210
sdg 109 42210
t 109 42210
tdg 109 42210
z 110 42621
s 110 42621
sdg 110 42621
t 110 42621
tdg 110 42621
z 111 43032
s 111 43032
sdg 111 43032
t 111 43032
tdg 111 43032
z 112 43443
s 112 43443
sdg 112 43443
t 112 43443
tdg 112 43443
z 113 43854
s 113 43854
sdg 113 43854
t 113 43854
tdg 113 43854
z 114 44265
s 114 44265
sdg 114 44265
t 114 44265
tdg 114 44265
z 115 44676
s 115 44676
sdg 115 44676
t 115 44676
tdg 115 44676
z 116 45087
s 116 45087
sdg 116 45087
t 116 45087
tdg 116 45087
z 117 45498
s 117 45498
sdg 117 45498
t 117 45498
tdg 117 45498
z 118 45909
s 118 45909
sdg 118 45909
t 118 45909
tdg 118 45909
z 119 46320
s 119 46320
sdg 119 46320
t 119 46320
tdg 119 46320
z 120 46731
s 120 46731
sdg 120 46731
t 120 46731
tdg 120 46731
z 121 47142
s 121 47142
sdg 121 47142
t 121 47142
tdg 121 47142
z 122 47553
s 122 47553
sdg 122 47553
t 122 47553
tdg 122 47553
z 123 47964
s 123 47964
sdg 123 47964
t 123 47964
tdg 123 47964
z 124 48375
s 124 48375
sdg 124 48375
t 124 48375
tdg 124 48375
z 125 48786
s 125 48786
sdg 125 48786
t 125 48786
tdg 125 48786
z 126 49197
s 126 49197
sdg 126 49197
t 126 49197
tdg 126 49197
z 127 49608
s 127 49608
sdg 127 49608
t 127 49608
tdg 127 49608
".

(** resources.files("mqt.qcec") / "profiles" / name; None: there is no such file *)
Definition package_profile (name : string) : option string :=
  if String.eqb name "qiskit_O0_noancilla.profile" then Some qiskit_O0_noancilla else
  if String.eqb name "qiskit_O0_recursion.profile" then Some qiskit_O0_recursion else
  if String.eqb name "qiskit_O0_v-chain.profile" then Some qiskit_O0_v_chain else
  if String.eqb name "qiskit_O1_noancilla.profile" then Some qiskit_O1_noancilla else
  if String.eqb name "qiskit_O1_recursion.profile" then Some qiskit_O1_recursion else
  if String.eqb name "qiskit_O1_v-chain.profile" then Some qiskit_O1_v_chain else
  if String.eqb name "qiskit_O2_noancilla.profile" then Some qiskit_O2_noancilla else
  if String.eqb name "qiskit_O2_recursion.profile" then Some qiskit_O2_recursion else
  if String.eqb name "qiskit_O2_v-chain.profile" then Some qiskit_O2_v_chain else
  if String.eqb name "qiskit_O3_noancilla.profile" then Some qiskit_O3_noancilla else
  if String.eqb name "qiskit_O3_recursion.profile" then Some qiskit_O3_recursion else
  if String.eqb name "qiskit_O3_v-chain.profile" then Some qiskit_O3_v_chain else
  None.
