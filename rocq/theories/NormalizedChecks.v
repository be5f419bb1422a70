(** The expectations of /repo/normalizer/normalized_test.go, evaluated in the model.
    These are checks of the model's fidelity, not claims. *)
From Verif Require Import Base Utf8Model PatternModel NormalizedModel.
Local Open Scope Z_scope.

Definition elegant : list N := [233; 108; 233; 103; 97; 110; 116]%N.
Definition elegant_nfd (_ : str) : list (list N) := [[101; 769]; [108]; [101; 769]; [103]; [97]; [110]; [116]]%N.
Definition view (r : res ns) : res (list N * list (Z * Z) * list (Z * Z)) :=
  do n <- r; Ok (runes (ns_norm n), ns_al n, ns_ao_values n).
Definition is_mn (c : N) : bool := (c =? 769)%N.

(** TestNormalized_NFDAddsNewChars *)
Example t_nfd : view (nfd elegant_nfd (new_ns (encode elegant))) =
  Ok ([101; 769; 108; 101; 769; 103; 97; 110; 116]%N,
      [(0, 2); (0, 2); (0, 2); (2, 3); (3, 5); (3, 5); (3, 5); (5, 6); (6, 7); (7, 8); (8, 9)],
      [(0, 3); (0, 3); (3, 4); (4, 7); (4, 7); (7, 8); (8, 9); (9, 10); (10, 11)]).
Proof. vm_compute. reflexivity. Qed.

(** TestNormalized_RemoveCharsAddedByNFD *)
Example t_nfd_accents :
  view (do n <- nfd elegant_nfd (new_ns (encode elegant)); remove_accents is_mn n) =
  Ok ([101; 108; 101; 103; 97; 110; 116]%N,
      [(0, 2); (2, 3); (3, 5); (5, 6); (6, 7); (7, 8); (8, 9)],
      [(0, 1); (0, 1); (1, 2); (2, 3); (2, 3); (3, 4); (4, 5); (5, 6); (6, 7)]).
Proof. vm_compute. reflexivity. Qed.

(** TestNormalized_RemoveChars *)
Example t_filter : view (ns_filter (fun c => negb (c =? 110)%N) (new_ns (encode elegant))) =
  Ok ([233; 108; 233; 103; 97; 116]%N,
      [(0, 2); (0, 2); (2, 3); (3, 5); (3, 5); (5, 6); (6, 7); (8, 9)],
      [(0, 2); (0, 2); (2, 3); (3, 5); (3, 5); (5, 6); (6, 7); (7, 7); (7, 8)]).
Proof. vm_compute. reflexivity. Qed.

(** TestNormalized_MixedAdditionRemoval *)
Example t_mixed :
  view (do n <- nfd elegant_nfd (new_ns (encode elegant));
        ns_filter (fun c => negb (c =? 110)%N && negb (is_mn c)) n) =
  Ok ([101; 108; 101; 103; 97; 116]%N,
      [(0, 2); (2, 3); (3, 5); (5, 6); (6, 7); (8, 9)],
      [(0, 1); (0, 1); (1, 2); (2, 3); (2, 3); (3, 4); (4, 5); (5, 5); (5, 6)]).
Proof. vm_compute. reflexivity. Qed.

(** TestNormalized_RangeConversion: "    __Hello__   " without spaces, in lower case. *)
Definition spaced : list N := [32; 32; 32; 32; 95; 95; 72; 101; 108; 108; 111; 95; 95; 32; 32; 32]%N.
Definition lower (s : str) : str := encode (map (fun c => if (c =? 72)%N then 104%N else c) (runes s)).
Definition conv (a b : Z) (on : index_on) : res (option (Z * Z)) :=
  do n <- ns_filter (fun c => negb (c =? 32)%N) (new_ns (encode spaced));
  do o <- convert_offset (case_map lower n) (Rng a b on);
  Ok (option_map (fun r => (r_start r, r_end r)) o).
Example t_conv :
  [conv 6 11 OnOriginal; conv 0 0 OnOriginal; conv 3 3 OnOriginal; conv 15 16 OnOriginal;
   conv 16 17 OnOriginal; conv 17 17 OnOriginal; conv 0 0 OnNormalized; conv 3 3 OnNormalized;
   conv 9 10 OnNormalized; conv 10 10 OnNormalized]
  = [Ok (Some (2, 7)); Ok (Some (0, 0)); Ok (Some (3, 3)); Ok (Some (9, 9));
     Ok (Some (16, 16)); Ok None; Ok (Some (0, 0)); Ok (Some (3, 3));
     Ok (Some (9, 9)); Ok None].
Proof. vm_compute. reflexivity. Qed.

(** TestNormalized_AddedCharactersAlignment *)
Example t_added :
  view (transform (new_ns (encode [37326; 21475; 32; 78; 111]%N))
    [([32%N], 0); (encode_rune 37326, 1); ([32%N], 1);
     ([32%N], 0); (encode_rune 21475, 1); ([32%N], 1);
     ([32%N], 0); ([78%N], 0); ([111%N], 0)] 0) =
  Ok ([32; 37326; 32; 32; 21475; 32; 32; 78; 111]%N,
      [(0, 3); (0, 3); (0, 3); (0, 3); (0, 3); (3, 6); (3, 6); (3, 6); (3, 6); (3, 6); (6, 7); (7, 8); (8, 9)],
      [(0, 5); (0, 5); (0, 5); (5, 10); (5, 10); (5, 10); (10, 11); (11, 12); (12, 13)]).
Proof. vm_compute. reflexivity. Qed.

(** TestNormalized_TransformRange_SingleBytes and _MultipleBytes *)
Example t_range1 :
  view (transform_range (new_ns (encode [72; 101; 108; 108; 111; 32; 102; 114; 105; 101; 110; 100]%N)) (Rng 0 4 OnOriginal)
    [(encode [89]%N, 0)] 3) =
  Ok ([89; 111; 32; 102; 114; 105; 101; 110; 100]%N,
      [(3, 4); (4, 5); (5, 6); (6, 7); (7, 8); (8, 9); (9, 10); (10, 11); (11, 12)],
      [(0, 0); (0, 0); (0, 0); (0, 1); (1, 2); (2, 3); (3, 4); (4, 5); (5, 6); (6, 7); (7, 8); (8, 9)]).
Proof. vm_compute. reflexivity. Qed.

Example t_range2 :
  view (transform_range (new_ns (encode [72; 101; 108; 108; 111; 32; 102; 114; 105; 101; 110; 100]%N)) (Rng 3 10 OnOriginal)
    [(encode [95]%N, 0); (encode [70]%N, 0); (encode [82]%N, -2)] 2) =
  Ok ([72; 101; 108; 95; 70; 82; 110; 100]%N,
      [(0, 1); (1, 2); (2, 3); (5, 6); (6, 7); (7, 8); (10, 11); (11, 12)],
      [(0, 1); (1, 2); (2, 3); (3, 3); (3, 3); (3, 4); (4, 5); (5, 6); (6, 6); (6, 6); (6, 7); (7, 8)]).
Proof. vm_compute. reflexivity. Qed.

Example t_range3 :
  view (transform_range (new_ns (encode [72; 101; 108; 108; 111; 32; 102; 114; 105; 101; 110; 100]%N)) (Rng 5 12 OnOriginal)
    [(encode [95]%N, 0); (encode [70]%N, -5)] 0) =
  Ok ([72; 101; 108; 108; 111; 95; 70]%N,
      [(0, 1); (1, 2); (2, 3); (3, 4); (4, 5); (5, 6); (6, 7)],
      [(0, 1); (1, 2); (2, 3); (3, 4); (4, 5); (5, 6); (6, 7); (7, 7); (7, 7); (7, 7); (7, 7); (7, 7)]).
Proof. vm_compute. reflexivity. Qed.

Example t_range4 :
  view (transform_range (new_ns (encode [72; 101; 108; 108; 111; 32; 102; 114; 105; 101; 110; 100]%N)) (Rng 0 1 OnOriginal)
    [(encode [72]%N, 1); (encode [72]%N, 0)] 0) =
  Ok ([72; 72; 101; 108; 108; 111; 32; 102; 114; 105; 101; 110; 100]%N,
      [(0, 0); (0, 1); (1, 2); (2, 3); (3, 4); (4, 5); (5, 6); (6, 7); (7, 8); (8, 9); (9, 10); (10, 11); (11, 12)],
      [(1, 2); (2, 3); (3, 4); (4, 5); (5, 6); (6, 7); (7, 8); (8, 9); (9, 10); (10, 11); (11, 12); (12, 13)]).
Proof. vm_compute. reflexivity. Qed.

Example t_range5 :
  view (transform_range (new_ns (encode [72; 101; 108; 108; 111; 32; 102; 114; 105; 101; 110; 100]%N)) (Rng 0 0 OnOriginal)
    [(encode [72]%N, 1)] 0) =
  Ok ([72; 72; 101; 108; 108; 111; 32; 102; 114; 105; 101; 110; 100]%N,
      [(0, 0); (0, 1); (1, 2); (2, 3); (3, 4); (4, 5); (5, 6); (6, 7); (7, 8); (8, 9); (9, 10); (10, 11); (11, 12)],
      [(1, 2); (2, 3); (3, 4); (4, 5); (5, 6); (6, 7); (7, 8); (8, 9); (9, 10); (10, 11); (11, 12); (12, 13)]).
Proof. vm_compute. reflexivity. Qed.

Example t_range6 :
  view (transform_range (new_ns (encode [72; 101; 108; 108; 111; 32; 102; 114; 105; 101; 110; 100]%N)) (Rng 0 1 OnOriginal)
    [(encode [72]%N, 0); (encode [72]%N, 1)] 0) =
  Ok ([72; 72; 101; 108; 108; 111; 32; 102; 114; 105; 101; 110; 100]%N,
      [(0, 1); (0, 1); (1, 2); (2, 3); (3, 4); (4, 5); (5, 6); (6, 7); (7, 8); (8, 9); (9, 10); (10, 11); (11, 12)],
      [(0, 2); (2, 3); (3, 4); (4, 5); (5, 6); (6, 7); (7, 8); (8, 9); (9, 10); (10, 11); (11, 12); (12, 13)]).
Proof. vm_compute. reflexivity. Qed.

Example t_range7 :
  view (transform_range (new_ns (encode [72; 101; 108; 108; 111; 32; 102; 114; 105; 101; 110; 100]%N)) (Rng 5 6 OnOriginal)
    [(encode [95]%N, 0); (encode [109]%N, 1); (encode [121]%N, 1); (encode [95]%N, 1)] 0) =
  Ok ([72; 101; 108; 108; 111; 95; 109; 121; 95; 102; 114; 105; 101; 110; 100]%N,
      [(0, 1); (1, 2); (2, 3); (3, 4); (4, 5); (5, 6); (5, 6); (5, 6); (5, 6); (6, 7); (7, 8); (8, 9); (9, 10); (10, 11); (11, 12)],
      [(0, 1); (1, 2); (2, 3); (3, 4); (4, 5); (5, 9); (9, 10); (10, 11); (11, 12); (12, 13); (13, 14); (14, 15)]).
Proof. vm_compute. reflexivity. Qed.

Example t_range8 :
  view (transform_range (new_ns (encode [72; 101; 108; 108; 111; 32; 102; 114; 105; 101; 110; 100]%N)) (Rng 11 12 OnOriginal)
    [(encode [100]%N, 0); (encode [95]%N, 1); (encode [33]%N, 1)] 0) =
  Ok ([72; 101; 108; 108; 111; 32; 102; 114; 105; 101; 110; 100; 95; 33]%N,
      [(0, 1); (1, 2); (2, 3); (3, 4); (4, 5); (5, 6); (6, 7); (7, 8); (8, 9); (9, 10); (10, 11); (11, 12); (11, 12); (11, 12)],
      [(0, 1); (1, 2); (2, 3); (3, 4); (4, 5); (5, 6); (6, 7); (7, 8); (8, 9); (9, 10); (10, 11); (11, 14)]).
Proof. vm_compute. reflexivity. Qed.

Example t_range9 :
  view (transform_range (new_ns (encode [120126; 120160; 120160; 120149]%N)) (Rng 0 8 OnOriginal)
    [(encode [71]%N, -1)] 0) =
  Ok ([71; 120160; 120149]%N,
      [(0, 4); (8, 12); (8, 12); (8, 12); (8, 12); (12, 16); (12, 16); (12, 16); (12, 16)],
      [(0, 1); (0, 1); (0, 1); (0, 1); (1, 1); (1, 1); (1, 1); (1, 1); (1, 5); (1, 5); (1, 5); (1, 5); (5, 9); (5, 9); (5, 9); (5, 9)]).
Proof. vm_compute. reflexivity. Qed.

Example t_range10 :
  view (transform_range (new_ns (encode [120126; 120160; 120160; 120149]%N)) (Rng 4 12 OnOriginal)
    [(encode [111]%N, -1)] 0) =
  Ok ([120126; 111; 120149]%N,
      [(0, 4); (0, 4); (0, 4); (0, 4); (4, 8); (12, 16); (12, 16); (12, 16); (12, 16)],
      [(0, 4); (0, 4); (0, 4); (0, 4); (4, 5); (4, 5); (4, 5); (4, 5); (5, 5); (5, 5); (5, 5); (5, 5); (5, 9); (5, 9); (5, 9); (5, 9)]).
Proof. vm_compute. reflexivity. Qed.

Example t_range11 :
  view (transform_range (new_ns (encode [120126; 120160; 120160; 120149]%N)) (Rng 12 16 OnOriginal)
    [(encode [100]%N, 0); (encode [33]%N, 1)] 0) =
  Ok ([120126; 120160; 120160; 100; 33]%N,
      [(0, 4); (0, 4); (0, 4); (0, 4); (4, 8); (4, 8); (4, 8); (4, 8); (8, 12); (8, 12); (8, 12); (8, 12); (12, 16); (12, 16)],
      [(0, 4); (0, 4); (0, 4); (0, 4); (4, 8); (4, 8); (4, 8); (4, 8); (8, 12); (8, 12); (8, 12); (8, 12); (12, 14); (12, 14); (12, 14); (12, 14)]).
Proof. vm_compute. reflexivity. Qed.

Example t_range12 :
  view (transform_range (new_ns (encode [120126; 120160; 120160; 120149]%N)) (Rng 0 1 OnOriginal)
    [(encode [95]%N, 1); (encode [120126]%N, 0)] 0) =
  Ok ([95; 120126; 120160; 120160; 120149]%N,
      [(0, 0); (0, 4); (0, 4); (0, 4); (0, 4); (4, 8); (4, 8); (4, 8); (4, 8); (8, 12); (8, 12); (8, 12); (8, 12); (12, 16); (12, 16); (12, 16); (12, 16)],
      [(1, 5); (1, 5); (1, 5); (1, 5); (5, 9); (5, 9); (5, 9); (5, 9); (9, 13); (9, 13); (9, 13); (9, 13); (13, 17); (13, 17); (13, 17); (13, 17)]).
Proof. vm_compute. reflexivity. Qed.

Example t_range13 :
  view (transform_range (new_ns (encode [120126; 120160; 120160; 120149]%N)) (Rng 0 0 OnOriginal)
    [(encode [95]%N, 1)] 0) =
  Ok ([95; 120126; 120160; 120160; 120149]%N,
      [(0, 0); (0, 4); (0, 4); (0, 4); (0, 4); (4, 8); (4, 8); (4, 8); (4, 8); (8, 12); (8, 12); (8, 12); (8, 12); (12, 16); (12, 16); (12, 16); (12, 16)],
      [(1, 5); (1, 5); (1, 5); (1, 5); (5, 9); (5, 9); (5, 9); (5, 9); (9, 13); (9, 13); (9, 13); (9, 13); (13, 17); (13, 17); (13, 17); (13, 17)]).
Proof. vm_compute. reflexivity. Qed.

Example t_range14 :
  view (transform_range (new_ns (encode [120126; 120160; 120160; 120149]%N)) (Rng 0 1 OnOriginal)
    [(encode [120126]%N, 0); (encode [111]%N, 1)] 0) =
  Ok ([120126; 111; 120160; 120160; 120149]%N,
      [(0, 4); (0, 4); (0, 4); (0, 4); (0, 4); (4, 8); (4, 8); (4, 8); (4, 8); (8, 12); (8, 12); (8, 12); (8, 12); (12, 16); (12, 16); (12, 16); (12, 16)],
      [(0, 5); (0, 5); (0, 5); (0, 5); (5, 9); (5, 9); (5, 9); (5, 9); (9, 13); (9, 13); (9, 13); (9, 13); (13, 17); (13, 17); (13, 17); (13, 17)]).
Proof. vm_compute. reflexivity. Qed.

Example t_range15 :
  view (transform_range (new_ns (encode [120126; 120160; 120160; 120149]%N)) (Rng 4 8 OnOriginal)
    [(encode [120160]%N, 0); (encode [111]%N, 1); (encode [111]%N, 1); (encode [111]%N, 1)] 0) =
  Ok ([120126; 120160; 111; 111; 111; 120160; 120149]%N,
      [(0, 4); (0, 4); (0, 4); (0, 4); (4, 8); (4, 8); (4, 8); (4, 8); (4, 8); (4, 8); (4, 8); (8, 12); (8, 12); (8, 12); (8, 12); (12, 16); (12, 16); (12, 16); (12, 16)],
      [(0, 4); (0, 4); (0, 4); (0, 4); (4, 11); (4, 11); (4, 11); (4, 11); (11, 15); (11, 15); (11, 15); (11, 15); (15, 19); (15, 19); (15, 19); (15, 19)]).
Proof. vm_compute. reflexivity. Qed.

Example t_range16 :
  view (transform_range (new_ns (encode [120126; 120160; 120160; 120149]%N)) (Rng 16 16 OnOriginal)
    [(encode [33]%N, 1)] 0) =
  Ok ([120126; 120160; 120160; 120149; 33]%N,
      [(0, 4); (0, 4); (0, 4); (0, 4); (4, 8); (4, 8); (4, 8); (4, 8); (8, 12); (8, 12); (8, 12); (8, 12); (12, 16); (12, 16); (12, 16); (12, 16); (12, 16)],
      [(0, 4); (0, 4); (0, 4); (0, 4); (4, 8); (4, 8); (4, 8); (4, 8); (8, 12); (8, 12); (8, 12); (8, 12); (12, 17); (12, 17); (12, 17); (12, 17)]).
Proof. vm_compute. reflexivity. Qed.
