(* GENERATED by tools/gen_tests.py from /repo/unittests/uri: the project's unit tests, evaluated in the model.
   They show that the model agrees with the code on what the project's authors checked; they are tests, not properties, and no theorem rests on them.
   uri::split etc. are run for char signed and unsigned (sg); the .in member of a Punycode result is not part of the model. *)
From Verif Require Import Base ModelUri ModelPct ModelFs.
From Verif Require ModelPuny Rfc3986.
Local Open Scope list_scope.
Definition same_uri (a b : outcome (option parts)) : Prop :=
  match a, b with Ok (Some x), Ok (Some y) => parts_eqb x y = true | Ok None, Ok None => True | _, _ => False end.
(* test_punycode.cpp:514-543 *)
Definition decode_encode_round_trip (original : str) : Prop :=
  let original := match original with c :: r => if Ascii.eqb c "-" && negb (existsb (Ascii.eqb "-"%char) r) then r else original | [] => [] end in
  match ModelPuny.decode original with
  | Ok (inl u) => match ModelPuny.encode u false with
                  | Ok (e, _) => length e = length original /\ map Rfc3986.lower e = map Rfc3986.lower original
                  | _ => False end
  | Ok (inr _) => True
  | _ => False end.
Ltac run_sg := intros []; vm_compute; repeat split; discriminate.
Ltac run := vm_compute; repeat split; discriminate.

(* test_uri.cpp:71 *)
Example UriSplit_Empty : forall sg : bool, match split_reference sg 200 [] with Ok (Some x) => p_scheme x = None /\ p_authority x = None /\ absolute (p_path x) = false /\ segments (p_path x) = [] /\ p_query x = None /\ p_fragment x = None | _ => False end.
Proof. run_sg. Qed.
(* test_uri.cpp:82 *)
Example UriSplit_EmptyPathComponents : forall sg : bool, match split_reference sg 200 (ss "/foo///bar") with Ok (Some x) => p_scheme x = None /\ p_authority x = None /\ absolute (p_path x) = true /\ segments (p_path x) = [(ss "foo"); []; []; (ss "bar")] /\ p_query x = None /\ p_fragment x = None | _ => False end.
Proof. run_sg. Qed.
(* test_uri.cpp:94 *)
Example UriSplit_0001 : forall sg : bool, match split_reference sg 200 (ss "C://[::A:eE5c]:2194/&///@//:_/%aB//.////#") with Ok (Some x) => p_scheme x = Some (ss "C") /\ p_authority x <> None /\ option_map ModelUri.userinfo (p_authority x) = Some None /\ option_map ModelUri.host (p_authority x) = Some (ss "[::A:eE5c]") /\ option_map ModelUri.port (p_authority x) = Some (Some (ss "2194")) /\ absolute (p_path x) = true /\ segments (p_path x) = [(ss "&"); []; []; (ss "@"); []; (ss ":_"); (ss "%aB"); []; (ss "."); []; []; []; []] /\ p_query x = None /\ p_fragment x = Some [] /\ path_string (p_path x) = (ss "/&///@//:_/%aB//.////") /\ path_filesystem (p_path x) = (ss "/&/@/:_/%aB/./") | _ => False end.
Proof. run_sg. Qed.
(* test_uri.cpp:113 *)
Example UriSplit_0002 : forall sg : bool, match split_reference sg 200 (ss "P-.:/?/?") with Ok (Some x) => p_scheme x = Some (ss "P-.") /\ p_authority x = None /\ absolute (p_path x) = true /\ segments (p_path x) = [[]] /\ p_query x = Some (ss "/?") /\ p_fragment x = None | _ => False end.
Proof. run_sg. Qed.
(* test_uri.cpp:124 *)
Example UriSplit_0003 : forall sg : bool, match split_reference sg 200 (ss "i+V:?") with Ok (Some x) => p_scheme x = Some (ss "i+V") /\ p_authority x = None /\ absolute (p_path x) = false /\ segments (p_path x) = [] /\ p_query x = Some [] /\ p_fragment x = None | _ => False end.
Proof. run_sg. Qed.
(* test_uri.cpp:135 *)
Example UriSplit_0004 : forall sg : bool, match split_reference sg 200 (ss "L:%Cf#%dD/?H") with Ok (Some x) => p_scheme x = Some (ss "L") /\ p_authority x = None /\ absolute (p_path x) = false /\ segments (p_path x) = [(ss "%Cf")] /\ p_query x = None /\ p_fragment x = Some (ss "%dD/?H") /\ path_string (p_path x) = (ss "%Cf") /\ path_filesystem (p_path x) = (ss "%Cf") | _ => False end.
Proof. run_sg. Qed.
(* test_uri.cpp:149 *)
Example UriSplit_0005 : forall sg : bool, match split_reference sg 200 (ss "E07:/8=-~%bF//%36////'/%16N%78//)/%53/;?*!") with Ok (Some x) => p_scheme x = Some (ss "E07") /\ p_authority x = None /\ absolute (p_path x) = true /\ segments (p_path x) = [(ss "8=-~%bF"); []; (ss "%36"); []; []; []; (ss "'"); (ss "%16N%78"); []; (ss ")"); (ss "%53"); (ss ";")] /\ p_query x = Some (ss "*!") /\ p_fragment x = None | _ => False end.
Proof. run_sg. Qed.
(* test_uri.cpp:163 *)
Example UriSplit_0006 : forall sg : bool, match split_reference sg 200 (ss "v:") with Ok (Some x) => p_scheme x = Some (ss "v") /\ p_authority x = None /\ absolute (p_path x) = false /\ segments (p_path x) = [] /\ p_query x = None /\ p_fragment x = None | _ => False end.
Proof. run_sg. Qed.
(* test_uri.cpp:174 *)
Example UriSplit_0007 : forall sg : bool, match split_reference sg 200 (ss "YXa:/#B") with Ok (Some x) => p_scheme x = Some (ss "YXa") /\ p_authority x = None /\ absolute (p_path x) = true /\ segments (p_path x) = [[]] /\ p_query x = None /\ p_fragment x = Some (ss "B") | _ => False end.
Proof. run_sg. Qed.
(* test_uri.cpp:185 *)
Example UriSplit_0008 : forall sg : bool, match split_reference sg 200 (ss "n:/,+?$#(+!)D") with Ok (Some x) => p_scheme x = Some (ss "n") /\ p_authority x = None /\ absolute (p_path x) = true /\ segments (p_path x) = [(ss ",+")] /\ p_query x = Some (ss "$") /\ p_fragment x = Some (ss "(+!)D") | _ => False end.
Proof. run_sg. Qed.
(* test_uri.cpp:196 *)
Example UriSplit_0009 : forall sg : bool, match split_reference sg 200 (ss "m:/?cJ") with Ok (Some x) => p_scheme x = Some (ss "m") /\ p_authority x = None /\ absolute (p_path x) = true /\ segments (p_path x) = [[]] /\ p_query x = Some (ss "cJ") /\ p_fragment x = None | _ => False end.
Proof. run_sg. Qed.
(* test_uri.cpp:207 *)
Example UriSplit_0010 : forall sg : bool, match split_reference sg 200 (ss "zR:d/M/kx/s/GTl///SgA/?#") with Ok (Some x) => p_scheme x = Some (ss "zR") /\ p_authority x = None /\ absolute (p_path x) = false /\ segments (p_path x) = [(ss "d"); (ss "M"); (ss "kx"); (ss "s"); (ss "GTl"); []; []; (ss "SgA"); []] /\ p_query x = Some [] /\ p_fragment x = Some [] | _ => False end.
Proof. run_sg. Qed.
(* test_uri.cpp:219 *)
Example UriSplit_0011 : forall sg : bool, match split_reference sg 200 (ss "t:W?p#") with Ok (Some x) => p_scheme x = Some (ss "t") /\ p_authority x = None /\ absolute (p_path x) = false /\ segments (p_path x) = [(ss "W")] /\ p_query x = Some (ss "p") /\ p_fragment x = Some [] | _ => False end.
Proof. run_sg. Qed.
(* test_uri.cpp:230 *)
Example UriSplit_0012 : forall sg : bool, match split_reference sg 200 (ss "QrIq:/#") with Ok (Some x) => p_scheme x = Some (ss "QrIq") /\ p_authority x = None /\ absolute (p_path x) = true /\ segments (p_path x) = [[]] /\ p_query x = None /\ p_fragment x = Some [] | _ => False end.
Proof. run_sg. Qed.
(* test_uri.cpp:241 *)
Example UriSplit_0013 : forall sg : bool, match split_reference sg 200 (ss "OuU:/?bZK") with Ok (Some x) => p_scheme x = Some (ss "OuU") /\ p_authority x = None /\ absolute (p_path x) = true /\ segments (p_path x) = [[]] /\ p_query x = Some (ss "bZK") /\ p_fragment x = None | _ => False end.
Proof. run_sg. Qed.
(* test_uri.cpp:252 *)
Example UriSplit_0014 : forall sg : bool, match split_reference sg 200 (ss "Fjfe:?h") with Ok (Some x) => p_scheme x = Some (ss "Fjfe") /\ p_authority x = None /\ absolute (p_path x) = false /\ segments (p_path x) = [] /\ p_query x = Some (ss "h") /\ p_fragment x = None | _ => False end.
Proof. run_sg. Qed.
(* test_uri.cpp:263 *)
Example UriSplit_0015 : forall sg : bool, match split_reference sg 200 (ss "y:w/o/b/?lKTF") with Ok (Some x) => p_scheme x = Some (ss "y") /\ p_authority x = None /\ absolute (p_path x) = false /\ segments (p_path x) = [(ss "w"); (ss "o"); (ss "b"); []] /\ p_query x = Some (ss "lKTF") /\ p_fragment x = None | _ => False end.
Proof. run_sg. Qed.
(* test_uri.cpp:274 *)
Example UriSplit_0016 : forall sg : bool, match split_reference sg 200 (ss "P://=:_%bb%Cf%2F-8;~@230.109.31.250#.") with Ok (Some x) => p_scheme x = Some (ss "P") /\ p_authority x <> None /\ option_map ModelUri.userinfo (p_authority x) = Some (Some (ss "=:_%bb%Cf%2F-8;~")) /\ option_map ModelUri.host (p_authority x) = Some (ss "230.109.31.250") /\ option_map ModelUri.port (p_authority x) = Some None /\ absolute (p_path x) = false /\ segments (p_path x) = [] /\ p_query x = None /\ p_fragment x = Some (ss ".") | _ => False end.
Proof. run_sg. Qed.
(* test_uri.cpp:288 *)
Example UriSplit_0017 : forall sg : bool, match split_reference sg 200 (ss "N://@=i%bD%Cb&*%Ea)%CE//:%cA//#?//") with Ok (Some x) => p_scheme x = Some (ss "N") /\ p_authority x <> None /\ option_map ModelUri.userinfo (p_authority x) = Some (Some []) /\ option_map ModelUri.host (p_authority x) = Some (ss "=i%bD%Cb&*%Ea)%CE") /\ option_map ModelUri.port (p_authority x) = Some None /\ absolute (p_path x) = true /\ segments (p_path x) = [[]; (ss ":%cA"); []; []] /\ p_query x = None /\ p_fragment x = Some (ss "?//") /\ path_string (p_path x) = (ss "//:%cA//") /\ path_filesystem (p_path x) = (ss "/:%cA/") | _ => False end.
Proof. run_sg. Qed.
(* test_uri.cpp:304 *)
Example UriSplit_0018 : forall sg : bool, match split_reference sg 200 (ss "X:#") with Ok (Some x) => p_scheme x = Some (ss "X") /\ p_authority x = None /\ absolute (p_path x) = false /\ segments (p_path x) = [] /\ p_query x = None /\ p_fragment x = Some [] | _ => False end.
Proof. run_sg. Qed.
(* test_uri.cpp:315 *)
Example UriSplit_0019 : forall sg : bool, match split_reference sg 200 (ss "U:??") with Ok (Some x) => p_scheme x = Some (ss "U") /\ p_authority x = None /\ absolute (p_path x) = false /\ segments (p_path x) = [] /\ p_query x = Some (ss "?") /\ p_fragment x = None | _ => False end.
Proof. run_sg. Qed.
(* test_uri.cpp:326 *)
Example UriSplit_0020 : forall sg : bool, match split_reference sg 200 (ss "G:") with Ok (Some x) => p_scheme x = Some (ss "G") /\ p_authority x = None /\ absolute (p_path x) = false /\ segments (p_path x) = [] /\ p_query x = None /\ p_fragment x = None | _ => False end.
Proof. run_sg. Qed.
(* test_uri.cpp:337 *)
Example UriSplit_0021 : forall sg : bool, match split_reference sg 200 (ss "l6+:?#") with Ok (Some x) => p_scheme x = Some (ss "l6+") /\ p_authority x = None /\ absolute (p_path x) = false /\ segments (p_path x) = [] /\ p_query x = Some [] /\ p_fragment x = Some [] | _ => False end.
Proof. run_sg. Qed.
(* test_uri.cpp:348 *)
Example UriSplit_0022 : forall sg : bool, match split_reference sg 200 (ss "T.-://:@[VD.~]:?/@#") with Ok (Some x) => p_scheme x = Some (ss "T.-") /\ p_authority x <> None /\ option_map ModelUri.userinfo (p_authority x) = Some (Some (ss ":")) /\ option_map ModelUri.host (p_authority x) = Some (ss "[VD.~]") /\ option_map ModelUri.port (p_authority x) = Some (Some []) /\ absolute (p_path x) = false /\ segments (p_path x) = [] /\ p_query x = Some (ss "/@") /\ p_fragment x = Some [] | _ => False end.
Proof. run_sg. Qed.
(* test_uri.cpp:362 *)
Example UriSplit_0023 : forall sg : bool, match split_reference sg 200 (ss "rC://3.76.206.5:8966?/") with Ok (Some x) => p_scheme x = Some (ss "rC") /\ p_authority x <> None /\ option_map ModelUri.userinfo (p_authority x) = Some None /\ option_map ModelUri.host (p_authority x) = Some (ss "3.76.206.5") /\ option_map ModelUri.port (p_authority x) = Some (Some (ss "8966")) /\ absolute (p_path x) = false /\ segments (p_path x) = [] /\ p_query x = Some (ss "/") /\ p_fragment x = None | _ => False end.
Proof. run_sg. Qed.
(* test_uri.cpp:376 *)
Example UriSplit_0024 : forall sg : bool, match split_reference sg 200 (ss "oNP:///::") with Ok (Some x) => p_scheme x = Some (ss "oNP") /\ p_authority x <> None /\ option_map ModelUri.userinfo (p_authority x) = Some None /\ option_map ModelUri.host (p_authority x) = Some [] /\ option_map ModelUri.port (p_authority x) = Some None /\ absolute (p_path x) = true /\ segments (p_path x) = [(ss "::")] /\ p_query x = None /\ p_fragment x = None | _ => False end.
Proof. run_sg. Qed.
(* test_uri.cpp:390 *)
Example UriSplit_0025 : forall sg : bool, match split_reference sg 200 (ss "g0:?#") with Ok (Some x) => p_scheme x = Some (ss "g0") /\ p_authority x = None /\ absolute (p_path x) = false /\ segments (p_path x) = [] /\ p_query x = Some [] /\ p_fragment x = Some [] | _ => False end.
Proof. run_sg. Qed.
(* test_uri.cpp:401 *)
Example UriSplit_0026 : forall sg : bool, match split_reference sg 200 (ss "Do1-:") with Ok (Some x) => p_scheme x = Some (ss "Do1-") /\ p_authority x = None /\ absolute (p_path x) = false /\ segments (p_path x) = [] /\ p_query x = None /\ p_fragment x = None | _ => False end.
Proof. run_sg. Qed.
(* test_uri.cpp:412 *)
Example UriSplit_0027 : forall sg : bool, match split_reference sg 200 (ss "K:?") with Ok (Some x) => p_scheme x = Some (ss "K") /\ p_authority x = None /\ absolute (p_path x) = false /\ segments (p_path x) = [] /\ p_query x = Some [] /\ p_fragment x = None | _ => False end.
Proof. run_sg. Qed.
(* test_uri.cpp:423 *)
Example UriSplit_0028 : forall sg : bool, match split_reference sg 200 (ss "tc://@[::F]:/::@~?@/") with Ok (Some x) => p_scheme x = Some (ss "tc") /\ p_authority x <> None /\ option_map ModelUri.userinfo (p_authority x) = Some (Some []) /\ option_map ModelUri.host (p_authority x) = Some (ss "[::F]") /\ option_map ModelUri.port (p_authority x) = Some (Some []) /\ absolute (p_path x) = true /\ segments (p_path x) = [(ss "::@~")] /\ p_query x = Some (ss "@/") /\ p_fragment x = None | _ => False end.
Proof. run_sg. Qed.
(* test_uri.cpp:437 *)
Example UriSplit_0029 : forall sg : bool, match split_reference sg 200 (ss "N:#") with Ok (Some x) => p_scheme x = Some (ss "N") /\ p_authority x = None /\ absolute (p_path x) = false /\ segments (p_path x) = [] /\ p_query x = None /\ p_fragment x = Some [] | _ => False end.
Proof. run_sg. Qed.
(* test_uri.cpp:448 *)
Example UriSplit_0030 : forall sg : bool, match split_reference sg 200 (ss "o:") with Ok (Some x) => p_scheme x = Some (ss "o") /\ p_authority x = None /\ absolute (p_path x) = false /\ segments (p_path x) = [] /\ p_query x = None /\ p_fragment x = None | _ => False end.
Proof. run_sg. Qed.
(* test_uri.cpp:459 *)
Example UriSplit_0031 : forall sg : bool, match split_reference sg 200 (ss "k-0+:???/") with Ok (Some x) => p_scheme x = Some (ss "k-0+") /\ p_authority x = None /\ absolute (p_path x) = false /\ segments (p_path x) = [] /\ p_query x = Some (ss "??/") /\ p_fragment x = None | _ => False end.
Proof. run_sg. Qed.
(* test_uri.cpp:470 *)
Example UriSplit_0032 : forall sg : bool, match split_reference sg 200 (ss "y://%DD@253.216.255.251//aa/??/://;") with Ok (Some x) => p_scheme x = Some (ss "y") /\ p_authority x <> None /\ option_map ModelUri.userinfo (p_authority x) = Some (Some (ss "%DD")) /\ option_map ModelUri.host (p_authority x) = Some (ss "253.216.255.251") /\ option_map ModelUri.port (p_authority x) = Some None /\ absolute (p_path x) = true /\ segments (p_path x) = [[]; (ss "aa"); []] /\ p_query x = Some (ss "?/://;") /\ p_fragment x = None /\ path_string (p_path x) = (ss "//aa/") /\ path_filesystem (p_path x) = (ss "/aa/") | _ => False end.
Proof. run_sg. Qed.
(* test_uri.cpp:487 *)
Example UriSplit_0033 : forall sg : bool, match split_reference sg 200 (ss "B://.@[AC::1:6DEb:14.97.229.249]:?/#??~(") with Ok (Some x) => p_scheme x = Some (ss "B") /\ p_authority x <> None /\ option_map ModelUri.userinfo (p_authority x) = Some (Some (ss ".")) /\ option_map ModelUri.host (p_authority x) = Some (ss "[AC::1:6DEb:14.97.229.249]") /\ option_map ModelUri.port (p_authority x) = Some (Some []) /\ absolute (p_path x) = false /\ segments (p_path x) = [] /\ p_query x = Some (ss "/") /\ p_fragment x = Some (ss "??~(") | _ => False end.
Proof. run_sg. Qed.
(* test_uri.cpp:502 *)
Example UriSplit_0034 : forall sg : bool, match split_reference sg 200 (ss "p://@26.254.86.252://aa") with Ok (Some x) => p_scheme x = Some (ss "p") /\ p_authority x <> None /\ option_map ModelUri.userinfo (p_authority x) = Some (Some []) /\ option_map ModelUri.host (p_authority x) = Some (ss "26.254.86.252") /\ option_map ModelUri.port (p_authority x) = Some (Some []) /\ absolute (p_path x) = true /\ segments (p_path x) = [[]; (ss "aa")] /\ p_query x = None /\ p_fragment x = None /\ path_string (p_path x) = (ss "//aa") /\ path_filesystem (p_path x) = (ss "/aa") | _ => False end.
Proof. run_sg. Qed.
(* test_uri.cpp:518 *)
Example UriSplit_0035 : forall sg : bool, match split_reference sg 200 (ss "P+-n:#/%f0") with Ok (Some x) => p_scheme x = Some (ss "P+-n") /\ p_authority x = None /\ absolute (p_path x) = false /\ segments (p_path x) = [] /\ p_query x = None /\ p_fragment x = Some (ss "/%f0") | _ => False end.
Proof. run_sg. Qed.
(* test_uri.cpp:529 *)
Example UriSplit_0036 : forall sg : bool, match split_reference sg 200 (ss "u:?") with Ok (Some x) => p_scheme x = Some (ss "u") /\ p_authority x = None /\ absolute (p_path x) = false /\ segments (p_path x) = [] /\ p_query x = Some [] /\ p_fragment x = None | _ => False end.
Proof. run_sg. Qed.
(* test_uri.cpp:540 *)
Example UriSplit_0037 : forall sg : bool, match split_reference sg 200 (ss "U://%Aa:@[::b:E:A:53.48.69.41]?") with Ok (Some x) => p_scheme x = Some (ss "U") /\ p_authority x <> None /\ option_map ModelUri.userinfo (p_authority x) = Some (Some (ss "%Aa:")) /\ option_map ModelUri.host (p_authority x) = Some (ss "[::b:E:A:53.48.69.41]") /\ option_map ModelUri.port (p_authority x) = Some None /\ absolute (p_path x) = false /\ segments (p_path x) = [] /\ p_query x = Some [] /\ p_fragment x = None | _ => False end.
Proof. run_sg. Qed.
(* test_uri.cpp:554 *)
Example UriSplit_0038 : forall sg : bool, match split_reference sg 200 (ss "h.P+9:?:#?") with Ok (Some x) => p_scheme x = Some (ss "h.P+9") /\ p_authority x = None /\ absolute (p_path x) = false /\ segments (p_path x) = [] /\ p_query x = Some (ss ":") /\ p_fragment x = Some (ss "?") | _ => False end.
Proof. run_sg. Qed.
(* test_uri.cpp:565 *)
Example UriSplit_0039 : forall sg : bool, match split_reference sg 200 (ss "x:??#") with Ok (Some x) => p_scheme x = Some (ss "x") /\ p_authority x = None /\ absolute (p_path x) = false /\ segments (p_path x) = [] /\ p_query x = Some (ss "?") /\ p_fragment x = Some [] | _ => False end.
Proof. run_sg. Qed.
(* test_uri.cpp:576 *)
Example UriSplit_0040 : forall sg : bool, match split_reference sg 200 (ss "A:#") with Ok (Some x) => p_scheme x = Some (ss "A") /\ p_authority x = None /\ absolute (p_path x) = false /\ segments (p_path x) = [] /\ p_query x = None /\ p_fragment x = Some [] | _ => False end.
Proof. run_sg. Qed.
(* test_uri.cpp:587 *)
Example UriSplit_0041 : forall sg : bool, match split_reference sg 200 (ss "Lp.:?#") with Ok (Some x) => p_scheme x = Some (ss "Lp.") /\ p_authority x = None /\ absolute (p_path x) = false /\ segments (p_path x) = [] /\ p_query x = Some [] /\ p_fragment x = Some [] | _ => False end.
Proof. run_sg. Qed.
(* test_uri.cpp:598 *)
Example UriSplit_0042 : forall sg : bool, match split_reference sg 200 (ss "d-:#") with Ok (Some x) => p_scheme x = Some (ss "d-") /\ p_authority x = None /\ absolute (p_path x) = false /\ segments (p_path x) = [] /\ p_query x = None /\ p_fragment x = Some [] | _ => False end.
Proof. run_sg. Qed.
(* test_uri.cpp:609 *)
Example UriSplit_0043 : forall sg : bool, match split_reference sg 200 (ss "h-.:?/?/#") with Ok (Some x) => p_scheme x = Some (ss "h-.") /\ p_authority x = None /\ absolute (p_path x) = false /\ segments (p_path x) = [] /\ p_query x = Some (ss "/?/") /\ p_fragment x = Some [] | _ => False end.
Proof. run_sg. Qed.
(* test_uri.cpp:620 *)
Example UriSplit_0044 : forall sg : bool, match split_reference sg 200 (ss "d:") with Ok (Some x) => p_scheme x = Some (ss "d") /\ p_authority x = None /\ absolute (p_path x) = false /\ segments (p_path x) = [] /\ p_query x = None /\ p_fragment x = None | _ => False end.
Proof. run_sg. Qed.
(* test_uri.cpp:631 *)
Example UriSplit_0045 : forall sg : bool, match split_reference sg 200 (ss "L:") with Ok (Some x) => p_scheme x = Some (ss "L") /\ p_authority x = None /\ absolute (p_path x) = false /\ segments (p_path x) = [] /\ p_query x = None /\ p_fragment x = None | _ => False end.
Proof. run_sg. Qed.
(* test_uri.cpp:642 *)
Example UriSplit_0046 : forall sg : bool, match split_reference sg 200 (ss "Z5://@[9:BB:8:DAc:BbAA:E:a::]?#@$") with Ok (Some x) => p_scheme x = Some (ss "Z5") /\ p_authority x <> None /\ option_map ModelUri.userinfo (p_authority x) = Some (Some []) /\ option_map ModelUri.host (p_authority x) = Some (ss "[9:BB:8:DAc:BbAA:E:a::]") /\ option_map ModelUri.port (p_authority x) = Some None /\ absolute (p_path x) = false /\ segments (p_path x) = [] /\ p_query x = Some [] /\ p_fragment x = Some (ss "@$") | _ => False end.
Proof. run_sg. Qed.
(* test_uri.cpp:656 *)
Example UriSplit_0047 : forall sg : bool, match split_reference sg 200 (ss "C-://[::1E:BB:a:5c1:Dd:40.44.228.108]/;?#") with Ok (Some x) => p_scheme x = Some (ss "C-") /\ p_authority x <> None /\ option_map ModelUri.userinfo (p_authority x) = Some None /\ option_map ModelUri.host (p_authority x) = Some (ss "[::1E:BB:a:5c1:Dd:40.44.228.108]") /\ option_map ModelUri.port (p_authority x) = Some None /\ absolute (p_path x) = true /\ segments (p_path x) = [(ss ";")] /\ p_query x = Some [] /\ p_fragment x = Some [] | _ => False end.
Proof. run_sg. Qed.
(* test_uri.cpp:671 *)
Example UriSplit_0048 : forall sg : bool, match split_reference sg 200 (ss "z://[c:BC:b:A:Bd:D:dC1f:cedB]?/#/:/%FA") with Ok (Some x) => p_scheme x = Some (ss "z") /\ p_authority x <> None /\ option_map ModelUri.userinfo (p_authority x) = Some None /\ option_map ModelUri.host (p_authority x) = Some (ss "[c:BC:b:A:Bd:D:dC1f:cedB]") /\ option_map ModelUri.port (p_authority x) = Some None /\ absolute (p_path x) = false /\ segments (p_path x) = [] /\ p_query x = Some (ss "/") /\ p_fragment x = Some (ss "/:/%FA") | _ => False end.
Proof. run_sg. Qed.
(* test_uri.cpp:686 *)
Example UriSplit_0049 : forall sg : bool, match split_reference sg 200 (ss "x.2:#") with Ok (Some x) => p_scheme x = Some (ss "x.2") /\ p_authority x = None /\ absolute (p_path x) = false /\ segments (p_path x) = [] /\ p_query x = None /\ p_fragment x = Some [] | _ => False end.
Proof. run_sg. Qed.
(* test_uri.cpp:697 *)
Example UriSplit_0050 : forall sg : bool, match split_reference sg 200 (ss "p://@[::F:e:4b:eCBE:f:c]") with Ok (Some x) => p_scheme x = Some (ss "p") /\ p_authority x <> None /\ option_map ModelUri.userinfo (p_authority x) = Some (Some []) /\ option_map ModelUri.host (p_authority x) = Some (ss "[::F:e:4b:eCBE:f:c]") /\ option_map ModelUri.port (p_authority x) = Some None /\ absolute (p_path x) = false /\ segments (p_path x) = [] /\ p_query x = None /\ p_fragment x = None | _ => False end.
Proof. run_sg. Qed.
(* test_uri.cpp:711 *)
Example UriSplit_0051 : forall sg : bool, match split_reference sg 200 (ss "tmi://[e:C:Aa:eD::FDfD:b:F]:?") with Ok (Some x) => p_scheme x = Some (ss "tmi") /\ p_authority x <> None /\ option_map ModelUri.userinfo (p_authority x) = Some None /\ option_map ModelUri.host (p_authority x) = Some (ss "[e:C:Aa:eD::FDfD:b:F]") /\ option_map ModelUri.port (p_authority x) = Some (Some []) /\ absolute (p_path x) = false /\ segments (p_path x) = [] /\ p_query x = Some [] /\ p_fragment x = None | _ => False end.
Proof. run_sg. Qed.
(* test_uri.cpp:725 *)
Example UriSplit_0052 : forall sg : bool, match split_reference sg 200 (ss "G+:") with Ok (Some x) => p_scheme x = Some (ss "G+") /\ p_authority x = None /\ absolute (p_path x) = false /\ segments (p_path x) = [] /\ p_query x = None /\ p_fragment x = None | _ => False end.
Proof. run_sg. Qed.
(* test_uri.cpp:736 *)
Example UriSplit_0053 : forall sg : bool, match split_reference sg 200 (ss "A://[vA5.+:=.p~=)=&_;-=7)(.;]:768295/+") with Ok (Some x) => p_scheme x = Some (ss "A") /\ p_authority x <> None /\ option_map ModelUri.userinfo (p_authority x) = Some None /\ option_map ModelUri.host (p_authority x) = Some (ss "[vA5.+:=.p~=)=&_;-=7)(.;]") /\ option_map ModelUri.port (p_authority x) = Some (Some (ss "768295")) /\ absolute (p_path x) = true /\ segments (p_path x) = [(ss "+")] /\ p_query x = None /\ p_fragment x = None | _ => False end.
Proof. run_sg. Qed.
(* test_uri.cpp:751 *)
Example UriSplit_0054 : forall sg : bool, match split_reference sg 200 (ss "n+://[::]:9831#") with Ok (Some x) => p_scheme x = Some (ss "n+") /\ p_authority x <> None /\ option_map ModelUri.userinfo (p_authority x) = Some None /\ option_map ModelUri.host (p_authority x) = Some (ss "[::]") /\ option_map ModelUri.port (p_authority x) = Some (Some (ss "9831")) /\ absolute (p_path x) = false /\ segments (p_path x) = [] /\ p_query x = None /\ p_fragment x = Some [] | _ => False end.
Proof. run_sg. Qed.
(* test_uri.cpp:765 *)
Example UriSplit_0055 : forall sg : bool, match split_reference sg 200 (ss "v-2e.l:?:????:/") with Ok (Some x) => p_scheme x = Some (ss "v-2e.l") /\ p_authority x = None /\ absolute (p_path x) = false /\ segments (p_path x) = [] /\ p_query x = Some (ss ":????:/") /\ p_fragment x = None | _ => False end.
Proof. run_sg. Qed.
(* test_uri.cpp:776 *)
Example UriSplit_0056 : forall sg : bool, match split_reference sg 200 (ss "ka+://6.@[F::219.226.254.253]:900/'R#") with Ok (Some x) => p_scheme x = Some (ss "ka+") /\ p_authority x <> None /\ option_map ModelUri.userinfo (p_authority x) = Some (Some (ss "6.")) /\ option_map ModelUri.host (p_authority x) = Some (ss "[F::219.226.254.253]") /\ option_map ModelUri.port (p_authority x) = Some (Some (ss "900")) /\ absolute (p_path x) = true /\ segments (p_path x) = [(ss "'R")] /\ p_query x = None /\ p_fragment x = Some [] | _ => False end.
Proof. run_sg. Qed.
(* test_uri.cpp:790 *)
Example UriSplit_0057 : forall sg : bool, match split_reference sg 200 (ss "P://[daf::B:7:e:b:D:F]:730") with Ok (Some x) => p_scheme x = Some (ss "P") /\ p_authority x <> None /\ option_map ModelUri.userinfo (p_authority x) = Some None /\ option_map ModelUri.host (p_authority x) = Some (ss "[daf::B:7:e:b:D:F]") /\ option_map ModelUri.port (p_authority x) = Some (Some (ss "730")) /\ absolute (p_path x) = false /\ segments (p_path x) = [] /\ p_query x = None /\ p_fragment x = None | _ => False end.
Proof. run_sg. Qed.
(* test_uri.cpp:804 *)
Example UriSplit_0058 : forall sg : bool, match split_reference sg 200 (ss "H://-!:_%Bd@[::]:7") with Ok (Some x) => p_scheme x = Some (ss "H") /\ p_authority x <> None /\ option_map ModelUri.userinfo (p_authority x) = Some (Some (ss "-!:_%Bd")) /\ option_map ModelUri.host (p_authority x) = Some (ss "[::]") /\ option_map ModelUri.port (p_authority x) = Some (Some (ss "7")) /\ absolute (p_path x) = false /\ segments (p_path x) = [] /\ p_query x = None /\ p_fragment x = None | _ => False end.
Proof. run_sg. Qed.
(* test_uri.cpp:818 *)
Example UriSplit_0059 : forall sg : bool, match split_reference sg 200 (ss "u+://;@[::dFC:d:6:d]://#") with Ok (Some x) => p_scheme x = Some (ss "u+") /\ p_authority x <> None /\ option_map ModelUri.userinfo (p_authority x) = Some (Some (ss ";")) /\ option_map ModelUri.host (p_authority x) = Some (ss "[::dFC:d:6:d]") /\ option_map ModelUri.port (p_authority x) = Some (Some []) /\ absolute (p_path x) = true /\ segments (p_path x) = [[]; []] /\ p_query x = None /\ p_fragment x = Some [] /\ path_string (p_path x) = (ss "//") /\ path_filesystem (p_path x) = (ss "/") | _ => False end.
Proof. run_sg. Qed.
(* test_uri.cpp:834 *)
Example UriSplit_0060 : forall sg : bool, match split_reference sg 200 (ss "D://[dCDa:c:e:B:F::D:a]:/%Dc") with Ok (Some x) => p_scheme x = Some (ss "D") /\ p_authority x <> None /\ option_map ModelUri.userinfo (p_authority x) = Some None /\ option_map ModelUri.host (p_authority x) = Some (ss "[dCDa:c:e:B:F::D:a]") /\ option_map ModelUri.port (p_authority x) = Some (Some []) /\ absolute (p_path x) = true /\ segments (p_path x) = [(ss "%Dc")] /\ p_query x = None /\ p_fragment x = None | _ => False end.
Proof. run_sg. Qed.
(* test_uri.cpp:848 *)
Example UriSplit_0061 : forall sg : bool, match split_reference sg 200 (ss "mF2:") with Ok (Some x) => p_scheme x = Some (ss "mF2") /\ p_authority x = None /\ absolute (p_path x) = false /\ segments (p_path x) = [] /\ p_query x = None /\ p_fragment x = None | _ => False end.
Proof. run_sg. Qed.
(* test_uri.cpp:859 *)
Example UriSplit_0062 : forall sg : bool, match split_reference sg 200 (ss "f.://[d1b:CF:AbBa::F:d:11.246.155.253]?") with Ok (Some x) => p_scheme x = Some (ss "f.") /\ p_authority x <> None /\ option_map ModelUri.userinfo (p_authority x) = Some None /\ option_map ModelUri.host (p_authority x) = Some (ss "[d1b:CF:AbBa::F:d:11.246.155.253]") /\ option_map ModelUri.port (p_authority x) = Some None /\ absolute (p_path x) = false /\ segments (p_path x) = [] /\ p_query x = Some [] /\ p_fragment x = None | _ => False end.
Proof. run_sg. Qed.
(* test_uri.cpp:874 *)
Example UriSplit_0063 : forall sg : bool, match split_reference sg 200 (ss "f5++://@[7d::6:df:f:245.95.78.9]:??") with Ok (Some x) => p_scheme x = Some (ss "f5++") /\ p_authority x <> None /\ option_map ModelUri.userinfo (p_authority x) = Some (Some []) /\ option_map ModelUri.host (p_authority x) = Some (ss "[7d::6:df:f:245.95.78.9]") /\ option_map ModelUri.port (p_authority x) = Some (Some []) /\ absolute (p_path x) = false /\ segments (p_path x) = [] /\ p_query x = Some (ss "?") /\ p_fragment x = None | _ => False end.
Proof. run_sg. Qed.
(* test_uri.cpp:888 *)
Example UriSplit_0064 : forall sg : bool, match split_reference sg 200 (ss "c.l://[::bba:B:6:1.255.161.3]:#?/") with Ok (Some x) => p_scheme x = Some (ss "c.l") /\ p_authority x <> None /\ option_map ModelUri.userinfo (p_authority x) = Some None /\ option_map ModelUri.host (p_authority x) = Some (ss "[::bba:B:6:1.255.161.3]") /\ option_map ModelUri.port (p_authority x) = Some (Some []) /\ absolute (p_path x) = false /\ segments (p_path x) = [] /\ p_query x = None /\ p_fragment x = Some (ss "?/") | _ => False end.
Proof. run_sg. Qed.
(* test_uri.cpp:902 *)
Example UriSplit_0065 : forall sg : bool, match split_reference sg 200 (ss "T://[fdF::f2]") with Ok (Some x) => p_scheme x = Some (ss "T") /\ p_authority x <> None /\ option_map ModelUri.userinfo (p_authority x) = Some None /\ option_map ModelUri.host (p_authority x) = Some (ss "[fdF::f2]") /\ option_map ModelUri.port (p_authority x) = Some None /\ absolute (p_path x) = false /\ segments (p_path x) = [] /\ p_query x = None /\ p_fragment x = None | _ => False end.
Proof. run_sg. Qed.
(* test_uri.cpp:916 *)
Example UriSplit_0066 : forall sg : bool, match split_reference sg 200 (ss "U-92.://[::A:C:c]/") with Ok (Some x) => p_scheme x = Some (ss "U-92.") /\ p_authority x <> None /\ option_map ModelUri.userinfo (p_authority x) = Some None /\ option_map ModelUri.host (p_authority x) = Some (ss "[::A:C:c]") /\ option_map ModelUri.port (p_authority x) = Some None /\ absolute (p_path x) = true /\ segments (p_path x) = [[]] /\ p_query x = None /\ p_fragment x = None /\ path_string (p_path x) = (ss "/") /\ path_filesystem (p_path x) = (ss "/") | _ => False end.
Proof. run_sg. Qed.
(* test_uri.cpp:932 *)
Example UriSplit_0067 : forall sg : bool, match split_reference sg 200 (ss "K:?#") with Ok (Some x) => p_scheme x = Some (ss "K") /\ p_authority x = None /\ absolute (p_path x) = false /\ segments (p_path x) = [] /\ p_query x = Some [] /\ p_fragment x = Some [] | _ => False end.
Proof. run_sg. Qed.
(* test_uri.cpp:943 *)
Example UriSplit_0068 : forall sg : bool, match split_reference sg 200 (ss "l.://[c:CEa:cd1B:f:f:D::ef]?#%bC@/:") with Ok (Some x) => p_scheme x = Some (ss "l.") /\ p_authority x <> None /\ option_map ModelUri.userinfo (p_authority x) = Some None /\ option_map ModelUri.host (p_authority x) = Some (ss "[c:CEa:cd1B:f:f:D::ef]") /\ option_map ModelUri.port (p_authority x) = Some None /\ absolute (p_path x) = false /\ segments (p_path x) = [] /\ p_query x = Some [] /\ p_fragment x = Some (ss "%bC@/:") | _ => False end.
Proof. run_sg. Qed.
(* test_uri.cpp:957 *)
Example UriSplit_0069 : forall sg : bool, match split_reference sg 200 (ss "v+://@[::C:dEd:4:218.255.251.5]:8/@.;J??Q??%48/#") with Ok (Some x) => p_scheme x = Some (ss "v+") /\ p_authority x <> None /\ option_map ModelUri.userinfo (p_authority x) = Some (Some []) /\ option_map ModelUri.host (p_authority x) = Some (ss "[::C:dEd:4:218.255.251.5]") /\ option_map ModelUri.port (p_authority x) = Some (Some (ss "8")) /\ absolute (p_path x) = true /\ segments (p_path x) = [(ss "@.;J")] /\ p_query x = Some (ss "?Q??%48/") /\ p_fragment x = Some [] | _ => False end.
Proof. run_sg. Qed.
(* test_uri.cpp:972 *)
Example UriSplit_0070 : forall sg : bool, match split_reference sg 200 (ss "I:?#") with Ok (Some x) => p_scheme x = Some (ss "I") /\ p_authority x = None /\ absolute (p_path x) = false /\ segments (p_path x) = [] /\ p_query x = Some [] /\ p_fragment x = Some [] | _ => False end.
Proof. run_sg. Qed.
(* test_uri.cpp:983 *)
Example UriSplit_0071 : forall sg : bool, match split_reference sg 200 (ss "t.+://[::Ec:AcA:9a]:92/%8a/#") with Ok (Some x) => p_scheme x = Some (ss "t.+") /\ p_authority x <> None /\ option_map ModelUri.userinfo (p_authority x) = Some None /\ option_map ModelUri.host (p_authority x) = Some (ss "[::Ec:AcA:9a]") /\ option_map ModelUri.port (p_authority x) = Some (Some (ss "92")) /\ absolute (p_path x) = true /\ segments (p_path x) = [(ss "%8a"); []] /\ p_query x = None /\ p_fragment x = Some [] /\ path_string (p_path x) = (ss "/%8a/") /\ path_filesystem (p_path x) = (ss "/%8a/") | _ => False end.
Proof. run_sg. Qed.
(* test_uri.cpp:999 *)
Example UriSplit_0072 : forall sg : bool, match split_reference sg 200 (ss "N+:?~") with Ok (Some x) => p_scheme x = Some (ss "N+") /\ p_authority x = None /\ absolute (p_path x) = false /\ segments (p_path x) = [] /\ p_query x = Some (ss "~") /\ p_fragment x = None | _ => False end.
Proof. run_sg. Qed.
(* test_uri.cpp:1010 *)
Example UriSplit_0073 : forall sg : bool, match split_reference sg 200 (ss "B:?/.#?") with Ok (Some x) => p_scheme x = Some (ss "B") /\ p_authority x = None /\ absolute (p_path x) = false /\ segments (p_path x) = [] /\ p_query x = Some (ss "/.") /\ p_fragment x = Some (ss "?") | _ => False end.
Proof. run_sg. Qed.
(* test_uri.cpp:1021 *)
Example UriSplit_0074 : forall sg : bool, match split_reference sg 200 (ss "u8K.://.(@[d::Baa:dE:D]#/") with Ok (Some x) => p_scheme x = Some (ss "u8K.") /\ p_authority x <> None /\ option_map ModelUri.userinfo (p_authority x) = Some (Some (ss ".(")) /\ option_map ModelUri.host (p_authority x) = Some (ss "[d::Baa:dE:D]") /\ option_map ModelUri.port (p_authority x) = Some None /\ absolute (p_path x) = false /\ segments (p_path x) = [] /\ p_query x = None /\ p_fragment x = Some (ss "/") | _ => False end.
Proof. run_sg. Qed.
(* test_uri.cpp:1035 *)
Example UriSplit_0075 : forall sg : bool, match split_reference sg 200 (ss "E+.://@[::F:ab79:B:fa:C]#") with Ok (Some x) => p_scheme x = Some (ss "E+.") /\ p_authority x <> None /\ option_map ModelUri.userinfo (p_authority x) = Some (Some []) /\ option_map ModelUri.host (p_authority x) = Some (ss "[::F:ab79:B:fa:C]") /\ option_map ModelUri.port (p_authority x) = Some None /\ absolute (p_path x) = false /\ segments (p_path x) = [] /\ p_query x = None /\ p_fragment x = Some [] | _ => False end.
Proof. run_sg. Qed.
(* test_uri.cpp:1049 *)
Example UriSplit_0076 : forall sg : bool, match split_reference sg 200 (ss "S+://[::BBc:d0:EA:3.67.149.137]:/?#/") with Ok (Some x) => p_scheme x = Some (ss "S+") /\ p_authority x <> None /\ option_map ModelUri.userinfo (p_authority x) = Some None /\ option_map ModelUri.host (p_authority x) = Some (ss "[::BBc:d0:EA:3.67.149.137]") /\ option_map ModelUri.port (p_authority x) = Some (Some []) /\ absolute (p_path x) = true /\ segments (p_path x) = [[]] /\ p_query x = Some [] /\ p_fragment x = Some (ss "/") /\ path_string (p_path x) = (ss "/") /\ path_filesystem (p_path x) = (ss "/") | _ => False end.
Proof. run_sg. Qed.
(* test_uri.cpp:1066 *)
Example UriSplit_0077 : forall sg : bool, match split_reference sg 200 (ss "Y://[4Bbc:bb::cDcd:5:c4:e:B1]:/%CA@/./??") with Ok (Some x) => p_scheme x = Some (ss "Y") /\ p_authority x <> None /\ option_map ModelUri.userinfo (p_authority x) = Some None /\ option_map ModelUri.host (p_authority x) = Some (ss "[4Bbc:bb::cDcd:5:c4:e:B1]") /\ option_map ModelUri.port (p_authority x) = Some (Some []) /\ absolute (p_path x) = true /\ segments (p_path x) = [(ss "%CA@"); (ss "."); []] /\ p_query x = Some (ss "?") /\ p_fragment x = None /\ path_string (p_path x) = (ss "/%CA@/./") /\ path_filesystem (p_path x) = (ss "/%CA@/./") | _ => False end.
Proof. run_sg. Qed.
(* test_uri.cpp:1084 *)
Example UriSplit_0078 : forall sg : bool, match split_reference sg 200 (ss "W.-://[CF::]://!?") with Ok (Some x) => p_scheme x = Some (ss "W.-") /\ p_authority x <> None /\ option_map ModelUri.userinfo (p_authority x) = Some None /\ option_map ModelUri.host (p_authority x) = Some (ss "[CF::]") /\ option_map ModelUri.port (p_authority x) = Some (Some []) /\ absolute (p_path x) = true /\ segments (p_path x) = [[]; (ss "!")] /\ p_query x = Some [] /\ p_fragment x = None /\ path_string (p_path x) = (ss "//!") /\ path_filesystem (p_path x) = (ss "/!") | _ => False end.
Proof. run_sg. Qed.
(* test_uri.cpp:1101 *)
Example UriSplit_0079 : forall sg : bool, match split_reference sg 200 (ss "SF6:#") with Ok (Some x) => p_scheme x = Some (ss "SF6") /\ p_authority x = None /\ absolute (p_path x) = false /\ segments (p_path x) = [] /\ p_query x = None /\ p_fragment x = Some [] | _ => False end.
Proof. run_sg. Qed.
(* test_uri.cpp:1112 *)
Example UriSplit_0080 : forall sg : bool, match split_reference sg 200 (ss "R:?????////???/////#??@?_:?") with Ok (Some x) => p_scheme x = Some (ss "R") /\ p_authority x = None /\ absolute (p_path x) = false /\ segments (p_path x) = [] /\ p_query x = Some (ss "????////???/////") /\ p_fragment x = Some (ss "??@?_:?") | _ => False end.
Proof. run_sg. Qed.
(* test_uri.cpp:1123 *)
Example UriSplit_0081 : forall sg : bool, match split_reference sg 200 (ss "g:") with Ok (Some x) => p_scheme x = Some (ss "g") /\ p_authority x = None /\ absolute (p_path x) = false /\ segments (p_path x) = [] /\ p_query x = None /\ p_fragment x = None | _ => False end.
Proof. run_sg. Qed.
(* test_uri.cpp:1134 *)
Example UriSplit_0082 : forall sg : bool, match split_reference sg 200 (ss "D-ir+.PA:??#") with Ok (Some x) => p_scheme x = Some (ss "D-ir+.PA") /\ p_authority x = None /\ absolute (p_path x) = false /\ segments (p_path x) = [] /\ p_query x = Some (ss "?") /\ p_fragment x = Some [] | _ => False end.
Proof. run_sg. Qed.
(* test_uri.cpp:1145 *)
Example UriSplit_0083 : forall sg : bool, match split_reference sg 200 (ss "Z-.-:") with Ok (Some x) => p_scheme x = Some (ss "Z-.-") /\ p_authority x = None /\ absolute (p_path x) = false /\ segments (p_path x) = [] /\ p_query x = None /\ p_fragment x = None | _ => False end.
Proof. run_sg. Qed.
(* test_uri.cpp:1156 *)
Example UriSplit_0084 : forall sg : bool, match split_reference sg 200 (ss "y-:") with Ok (Some x) => p_scheme x = Some (ss "y-") /\ p_authority x = None /\ absolute (p_path x) = false /\ segments (p_path x) = [] /\ p_query x = None /\ p_fragment x = None | _ => False end.
Proof. run_sg. Qed.
(* test_uri.cpp:1167 *)
Example UriSplit_0085 : forall sg : bool, match split_reference sg 200 (ss "p:?") with Ok (Some x) => p_scheme x = Some (ss "p") /\ p_authority x = None /\ absolute (p_path x) = false /\ segments (p_path x) = [] /\ p_query x = Some [] /\ p_fragment x = None | _ => False end.
Proof. run_sg. Qed.
(* test_uri.cpp:1178 *)
Example UriSplit_0086 : forall sg : bool, match split_reference sg 200 (ss "M:#*.") with Ok (Some x) => p_scheme x = Some (ss "M") /\ p_authority x = None /\ absolute (p_path x) = false /\ segments (p_path x) = [] /\ p_query x = None /\ p_fragment x = Some (ss "*.") | _ => False end.
Proof. run_sg. Qed.
(* test_uri.cpp:1189 *)
Example UriSplit_0087 : forall sg : bool, match split_reference sg 200 (ss "I:?%ab#/.") with Ok (Some x) => p_scheme x = Some (ss "I") /\ p_authority x = None /\ absolute (p_path x) = false /\ segments (p_path x) = [] /\ p_query x = Some (ss "%ab") /\ p_fragment x = Some (ss "/.") | _ => False end.
Proof. run_sg. Qed.
(* test_uri.cpp:1200 *)
Example UriSplit_0088 : forall sg : bool, match split_reference sg 200 (ss "v6:#:?") with Ok (Some x) => p_scheme x = Some (ss "v6") /\ p_authority x = None /\ absolute (p_path x) = false /\ segments (p_path x) = [] /\ p_query x = None /\ p_fragment x = Some (ss ":?") | _ => False end.
Proof. run_sg. Qed.
(* test_uri.cpp:1211 *)
Example UriSplit_0089 : forall sg : bool, match split_reference sg 200 (ss "D:#") with Ok (Some x) => p_scheme x = Some (ss "D") /\ p_authority x = None /\ absolute (p_path x) = false /\ segments (p_path x) = [] /\ p_query x = None /\ p_fragment x = Some [] | _ => False end.
Proof. run_sg. Qed.
(* test_uri.cpp:1222 *)
Example UriSplit_0090 : forall sg : bool, match split_reference sg 200 (ss "e.:#") with Ok (Some x) => p_scheme x = Some (ss "e.") /\ p_authority x = None /\ absolute (p_path x) = false /\ segments (p_path x) = [] /\ p_query x = None /\ p_fragment x = Some [] | _ => False end.
Proof. run_sg. Qed.
(* test_uri.cpp:1233 *)
Example UriSplit_0091 : forall sg : bool, match split_reference sg 200 (ss "L:?#") with Ok (Some x) => p_scheme x = Some (ss "L") /\ p_authority x = None /\ absolute (p_path x) = false /\ segments (p_path x) = [] /\ p_query x = Some [] /\ p_fragment x = Some [] | _ => False end.
Proof. run_sg. Qed.
(* test_uri.cpp:1244 *)
Example UriSplit_0092 : forall sg : bool, match split_reference sg 200 (ss "g-:#") with Ok (Some x) => p_scheme x = Some (ss "g-") /\ p_authority x = None /\ absolute (p_path x) = false /\ segments (p_path x) = [] /\ p_query x = None /\ p_fragment x = Some [] | _ => False end.
Proof. run_sg. Qed.
(* test_uri.cpp:1255 *)
Example UriSplit_0093 : forall sg : bool, match split_reference sg 200 (ss "H:") with Ok (Some x) => p_scheme x = Some (ss "H") /\ p_authority x = None /\ absolute (p_path x) = false /\ segments (p_path x) = [] /\ p_query x = None /\ p_fragment x = None | _ => False end.
Proof. run_sg. Qed.
(* test_uri.cpp:1266 *)
Example UriSplit_0094 : forall sg : bool, match split_reference sg 200 (ss "K:??") with Ok (Some x) => p_scheme x = Some (ss "K") /\ p_authority x = None /\ absolute (p_path x) = false /\ segments (p_path x) = [] /\ p_query x = Some (ss "?") /\ p_fragment x = None | _ => False end.
Proof. run_sg. Qed.
(* test_uri.cpp:1277 *)
Example UriSplit_0095 : forall sg : bool, match split_reference sg 200 (ss "c-:?#") with Ok (Some x) => p_scheme x = Some (ss "c-") /\ p_authority x = None /\ absolute (p_path x) = false /\ segments (p_path x) = [] /\ p_query x = Some [] /\ p_fragment x = Some [] | _ => False end.
Proof. run_sg. Qed.
(* test_uri.cpp:1288 *)
Example UriSplit_0096 : forall sg : bool, match split_reference sg 200 (ss "Bw:?") with Ok (Some x) => p_scheme x = Some (ss "Bw") /\ p_authority x = None /\ absolute (p_path x) = false /\ segments (p_path x) = [] /\ p_query x = Some [] /\ p_fragment x = None | _ => False end.
Proof. run_sg. Qed.
(* test_uri.cpp:1299 *)
Example UriSplit_0097 : forall sg : bool, match split_reference sg 200 (ss "hC:?") with Ok (Some x) => p_scheme x = Some (ss "hC") /\ p_authority x = None /\ absolute (p_path x) = false /\ segments (p_path x) = [] /\ p_query x = Some [] /\ p_fragment x = None | _ => False end.
Proof. run_sg. Qed.
(* test_uri.cpp:1310 *)
Example UriSplit_0098 : forall sg : bool, match split_reference sg 200 (ss "q:?/#/") with Ok (Some x) => p_scheme x = Some (ss "q") /\ p_authority x = None /\ absolute (p_path x) = false /\ segments (p_path x) = [] /\ p_query x = Some (ss "/") /\ p_fragment x = Some (ss "/") | _ => False end.
Proof. run_sg. Qed.
(* test_uri.cpp:1321 *)
Example UriSplit_0099 : forall sg : bool, match split_reference sg 200 (ss "L:") with Ok (Some x) => p_scheme x = Some (ss "L") /\ p_authority x = None /\ absolute (p_path x) = false /\ segments (p_path x) = [] /\ p_query x = None /\ p_fragment x = None | _ => False end.
Proof. run_sg. Qed.
(* test_uri.cpp:1332 *)
Example UriSplit_0100 : forall sg : bool, match split_reference sg 200 (ss "W-:?") with Ok (Some x) => p_scheme x = Some (ss "W-") /\ p_authority x = None /\ absolute (p_path x) = false /\ segments (p_path x) = [] /\ p_query x = Some [] /\ p_fragment x = None | _ => False end.
Proof. run_sg. Qed.
(* test_uri.cpp:1352 *)
Example RemoveDotSegments_LeadingDotDotSlash : forall sg : bool, match split_reference sg 200 (ss "../bar") with Ok (Some x) => absolute (p_path x) = false /\ segments (p_path x) = [(ss ".."); (ss "bar")] /\ let y := mkparts (p_scheme x) (p_authority x) (remove_dot_segments (p_path x)) (p_query x) (p_fragment x) in segments (p_path y) = [(ss "bar")] | _ => False end.
Proof. run_sg. Qed.
(* test_uri.cpp:1361 *)
Example RemoveDotSegments_LeadingDotSlash : forall sg : bool, match split_reference sg 200 (ss "./bar") with Ok (Some x) => absolute (p_path x) = false /\ segments (p_path x) = [(ss "."); (ss "bar")] /\ let y := mkparts (p_scheme x) (p_authority x) (remove_dot_segments (p_path x)) (p_query x) (p_fragment x) in segments (p_path y) = [(ss "bar")] | _ => False end.
Proof. run_sg. Qed.
(* test_uri.cpp:1370 *)
Example RemoveDotSegments_LeadingDotDotSlashDotSlash : forall sg : bool, match split_reference sg 200 (ss ".././bar") with Ok (Some x) => absolute (p_path x) = false /\ segments (p_path x) = [(ss ".."); (ss "."); (ss "bar")] /\ let y := mkparts (p_scheme x) (p_authority x) (remove_dot_segments (p_path x)) (p_query x) (p_fragment x) in absolute (p_path y) = false /\ segments (p_path y) = [(ss "bar")] | _ => False end.
Proof. run_sg. Qed.
(* test_uri.cpp:1380 *)
Example RemoveDotSegments_MidDot : forall sg : bool, match split_reference sg 200 (ss "/foo/./bar") with Ok (Some x) => absolute (p_path x) = true /\ segments (p_path x) = [(ss "foo"); (ss "."); (ss "bar")] /\ let y := mkparts (p_scheme x) (p_authority x) (remove_dot_segments (p_path x)) (p_query x) (p_fragment x) in absolute (p_path y) = true /\ segments (p_path y) = [(ss "foo"); (ss "bar")] | _ => False end.
Proof. run_sg. Qed.
(* test_uri.cpp:1390 *)
Example RemoveDotSegments_LonelySlashDot : forall sg : bool, match split_reference sg 200 (ss "/.") with Ok (Some x) => absolute (p_path x) = true /\ segments (p_path x) = [(ss ".")] /\ let y := mkparts (p_scheme x) (p_authority x) (remove_dot_segments (p_path x)) (p_query x) (p_fragment x) in absolute (p_path y) = true /\ segments (p_path y) = [[]] | _ => False end.
Proof. run_sg. Qed.
(* test_uri.cpp:1402 *)
Example RemoveDotSegments_TrailingDotSlash : forall sg : bool, match split_reference sg 200 (ss "/bar/./") with Ok (Some x) => absolute (p_path x) = true /\ segments (p_path x) = [(ss "bar"); (ss "."); []] /\ let y := mkparts (p_scheme x) (p_authority x) (remove_dot_segments (p_path x)) (p_query x) (p_fragment x) in absolute (p_path y) = true /\ segments (p_path y) = [(ss "bar"); []] | _ => False end.
Proof. run_sg. Qed.
(* test_uri.cpp:1414 *)
Example RemoveDotSegments_MidSlashDotDot : forall sg : bool, match split_reference sg 200 (ss "/foo/../bar") with Ok (Some x) => absolute (p_path x) = true /\ segments (p_path x) = [(ss "foo"); (ss ".."); (ss "bar")] /\ let y := mkparts (p_scheme x) (p_authority x) (remove_dot_segments (p_path x)) (p_query x) (p_fragment x) in absolute (p_path y) = true /\ segments (p_path y) = [(ss "bar")] | _ => False end.
Proof. run_sg. Qed.
(* test_uri.cpp:1426 *)
Example RemoveDotSegments_TrailingDotDotSlash : forall sg : bool, match split_reference sg 200 (ss "/bar/../") with Ok (Some x) => absolute (p_path x) = true /\ segments (p_path x) = [(ss "bar"); (ss ".."); []] /\ let y := mkparts (p_scheme x) (p_authority x) (remove_dot_segments (p_path x)) (p_query x) (p_fragment x) in absolute (p_path y) = true /\ segments (p_path y) = [[]] | _ => False end.
Proof. run_sg. Qed.
(* test_uri.cpp:1438 *)
Example RemoveDotSegments_LonelySlashDotDot : forall sg : bool, match split_reference sg 200 (ss "/..") with Ok (Some x) => absolute (p_path x) = true /\ segments (p_path x) = [(ss "..")] /\ let y := mkparts (p_scheme x) (p_authority x) (remove_dot_segments (p_path x)) (p_query x) (p_fragment x) in absolute (p_path y) = true /\ segments (p_path y) = [[]] /\ match split_reference sg 200 (ss "/") with Ok (Some z) => parts_eqb y z = true | _ => False end | _ => False end.
Proof. run_sg. Qed.
(* test_uri.cpp:1453 *)
Example RemoveDotSegments_TrailingSlashDotDot : forall sg : bool, match split_reference sg 200 (ss "/bar/..") with Ok (Some x) => absolute (p_path x) = true /\ segments (p_path x) = [(ss "bar"); (ss "..")] /\ let y := mkparts (p_scheme x) (p_authority x) (remove_dot_segments (p_path x)) (p_query x) (p_fragment x) in absolute (p_path y) = true /\ segments (p_path y) = [[]] /\ match split_reference sg 200 (ss "/") with Ok (Some z) => parts_eqb y z = true | _ => False end | _ => False end.
Proof. run_sg. Qed.
(* test_uri.cpp:1468 *)
Example RemoveDotSegments_TwoDirectoriesTrailingSlashDotDot : forall sg : bool, match split_reference sg 200 (ss "/foo/bar/..") with Ok (Some x) => absolute (p_path x) = true /\ segments (p_path x) = [(ss "foo"); (ss "bar"); (ss "..")] /\ let y := mkparts (p_scheme x) (p_authority x) (remove_dot_segments (p_path x)) (p_query x) (p_fragment x) in absolute (p_path y) = true /\ segments (p_path y) = [(ss "foo"); []] /\ match split_reference sg 200 (ss "/foo/") with Ok (Some z) => parts_eqb y z = true | _ => False end | _ => False end.
Proof. run_sg. Qed.
(* test_uri.cpp:1483 *)
Example RemoveDotSegments_LonelyDot : forall sg : bool, match split_reference sg 200 (ss ".") with Ok (Some x) => absolute (p_path x) = false /\ segments (p_path x) = [(ss ".")] /\ let y := mkparts (p_scheme x) (p_authority x) (remove_dot_segments (p_path x)) (p_query x) (p_fragment x) in absolute (p_path y) = false /\ segments (p_path y) = [[]] | _ => False end.
Proof. run_sg. Qed.
(* test_uri.cpp:1495 *)
Example RemoveDotSegments_LonelyDotDot : forall sg : bool, match split_reference sg 200 (ss "..") with Ok (Some x) => absolute (p_path x) = false /\ segments (p_path x) = [(ss "..")] /\ let y := mkparts (p_scheme x) (p_authority x) (remove_dot_segments (p_path x)) (p_query x) (p_fragment x) in absolute (p_path y) = false /\ segments (p_path y) = [[]] | _ => False end.
Proof. run_sg. Qed.
(* test_uri.cpp:1507 *)
Example RemoveDotSegments_LonelyDotDotSlashDot : forall sg : bool, match split_reference sg 200 (ss "../.") with Ok (Some x) => absolute (p_path x) = false /\ segments (p_path x) = [(ss ".."); (ss ".")] /\ let y := mkparts (p_scheme x) (p_authority x) (remove_dot_segments (p_path x)) (p_query x) (p_fragment x) in absolute (p_path y) = false /\ segments (p_path y) = [[]] | _ => False end.
Proof. run_sg. Qed.
(* test_uri.cpp:1520 *)
Example UriFileSystemPath_Root : forall sg : bool, let p := (mkparts None None (mkpath true []) None None) in path_filesystem (p_path p) = (ss "/").
Proof. run_sg. Qed.
(* test_uri.cpp:1527 *)
Example UriFileSystemPath_RootFoo : forall sg : bool, let p := (mkparts None None (mkpath true [(ss "foo")]) None None) in path_filesystem (p_path p) = (ss "/foo").
Proof. run_sg. Qed.
(* test_uri.cpp:1535 *)
Example UriFileSystemPath_AbsoluteTwoSegments : forall sg : bool, let p := (mkparts None None (mkpath true [(ss "foo"); (ss "bar")]) None None) in path_filesystem (p_path p) = (ss "/foo/bar").
Proof. run_sg. Qed.
(* test_uri.cpp:1544 *)
Example UriFileSystemPath_AbsoluteTwoSegmentsDirectory : forall sg : bool, let p := (mkparts None None (mkpath true [(ss "foo"); (ss "bar"); []]) None None) in path_filesystem (p_path p) = (ss "/foo/bar/").
Proof. run_sg. Qed.
(* test_uri.cpp:1554 *)
Example UriFileSystemPath_RelativeTwoSegments : forall sg : bool, let p := (mkparts None None (mkpath false [(ss "foo"); (ss "bar")]) None None) in path_filesystem (p_path p) = (ss "foo/bar").
Proof. run_sg. Qed.
(* test_uri.cpp:1562 *)
Example UriFileSystemPath_RelativeTwoSegmentsDirectory : forall sg : bool, let p := (mkparts None None (mkpath false [(ss "foo"); (ss "bar"); []]) None None) in path_filesystem (p_path p) = (ss "foo/bar/").
Proof. run_sg. Qed.
(* test_uri.cpp:1578 *)
Example Join_Normal : forall sg : bool, same_uri (split sg 200 (ss "g:h")) (join sg 200 (ss "http://a/b/c/d;p?q") (ss "g:h") true) /\ same_uri (split sg 200 (ss "http://a/b/c/g")) (join sg 200 (ss "http://a/b/c/d;p?q") (ss "g") true) /\ same_uri (split sg 200 (ss "http://a/b/c/g")) (join sg 200 (ss "http://a/b/c/d;p?q") (ss "./g") true) /\ same_uri (split sg 200 (ss "http://a/b/c/g/")) (join sg 200 (ss "http://a/b/c/d;p?q") (ss "g/") true) /\ same_uri (split sg 200 (ss "http://a/g")) (join sg 200 (ss "http://a/b/c/d;p?q") (ss "/g") true) /\ same_uri (split sg 200 (ss "http://g")) (join sg 200 (ss "http://a/b/c/d;p?q") (ss "//g") true) /\ same_uri (split sg 200 (ss "http://a/b/c/d;p?y")) (join sg 200 (ss "http://a/b/c/d;p?q") (ss "?y") true) /\ same_uri (split sg 200 (ss "http://a/b/c/g?y")) (join sg 200 (ss "http://a/b/c/d;p?q") (ss "g?y") true) /\ same_uri (split sg 200 (ss "http://a/b/c/d;p?q#s")) (join sg 200 (ss "http://a/b/c/d;p?q") (ss "#s") true) /\ same_uri (split sg 200 (ss "http://a/b/c/d;p?q#s")) (join sg 200 (ss "http://a/b/c/d;p?q") (ss "#s") true) /\ same_uri (split sg 200 (ss "http://a/b/c/g#s")) (join sg 200 (ss "http://a/b/c/d;p?q") (ss "g#s") true) /\ same_uri (split sg 200 (ss "http://a/b/c/g?y#s")) (join sg 200 (ss "http://a/b/c/d;p?q") (ss "g?y#s") true) /\ same_uri (split sg 200 (ss "http://a/b/c/;x")) (join sg 200 (ss "http://a/b/c/d;p?q") (ss ";x") true) /\ same_uri (split sg 200 (ss "http://a/b/c/g;x")) (join sg 200 (ss "http://a/b/c/d;p?q") (ss "g;x") true) /\ same_uri (split sg 200 (ss "http://a/b/c/g;x?y#s")) (join sg 200 (ss "http://a/b/c/d;p?q") (ss "g;x?y#s") true) /\ same_uri (split sg 200 (ss "http://a/b/c/d;p?q")) (join sg 200 (ss "http://a/b/c/d;p?q") [] true) /\ same_uri (split sg 200 (ss "http://a/b/c/")) (join sg 200 (ss "http://a/b/c/d;p?q") (ss ".") true) /\ same_uri (split sg 200 (ss "http://a/b/c/")) (join sg 200 (ss "http://a/b/c/d;p?q") (ss "./") true) /\ same_uri (split sg 200 (ss "http://a/b/")) (join sg 200 (ss "http://a/b/c/d;p?q") (ss "..") true) /\ same_uri (split sg 200 (ss "http://a/b/")) (join sg 200 (ss "http://a/b/c/d;p?q") (ss "../") true) /\ same_uri (split sg 200 (ss "http://a/b/g")) (join sg 200 (ss "http://a/b/c/d;p?q") (ss "../g") true) /\ same_uri (split sg 200 (ss "http://a/")) (join sg 200 (ss "http://a/b/c/d;p?q") (ss "../..") true) /\ same_uri (split sg 200 (ss "http://a/")) (join sg 200 (ss "http://a/b/c/d;p?q") (ss "../../") true) /\ same_uri (split sg 200 (ss "http://a/g")) (join sg 200 (ss "http://a/b/c/d;p?q") (ss "../../g") true) /\ same_uri (split sg 200 (ss "file://user@a/g")) (join sg 200 (ss "file://user@a") (ss "../../g") true).
Proof. run_sg. Qed.
(* test_uri.cpp:1607 *)
Example Join_Abnormal : forall sg : bool, same_uri (split sg 200 (ss "http://a/g")) (join sg 200 (ss "http://a/b/c/d;p?q") (ss "../../../g") true) /\ same_uri (split sg 200 (ss "http://a/g")) (join sg 200 (ss "http://a/b/c/d;p?q") (ss "../../../../g") true) /\ same_uri (split sg 200 (ss "http://a/g")) (join sg 200 (ss "http://a/b/c/d;p?q") (ss "/./g") true) /\ same_uri (split sg 200 (ss "http://a/g")) (join sg 200 (ss "http://a/b/c/d;p?q") (ss "/../g") true) /\ same_uri (split sg 200 (ss "http://a/b/c/g.")) (join sg 200 (ss "http://a/b/c/d;p?q") (ss "g.") true) /\ same_uri (split sg 200 (ss "http://a/b/c/.g")) (join sg 200 (ss "http://a/b/c/d;p?q") (ss ".g") true) /\ same_uri (split sg 200 (ss "http://a/b/c/g..")) (join sg 200 (ss "http://a/b/c/d;p?q") (ss "g..") true) /\ same_uri (split sg 200 (ss "http://a/b/c/..g")) (join sg 200 (ss "http://a/b/c/d;p?q") (ss "..g") true) /\ same_uri (split sg 200 (ss "http://a/b/g")) (join sg 200 (ss "http://a/b/c/d;p?q") (ss "./../g") true) /\ same_uri (split sg 200 (ss "http://a/b/c/g/")) (join sg 200 (ss "http://a/b/c/d;p?q") (ss "./g/.") true) /\ same_uri (split sg 200 (ss "http://a/b/c/g/h")) (join sg 200 (ss "http://a/b/c/d;p?q") (ss "g/./h") true) /\ same_uri (split sg 200 (ss "http://a/b/c/h")) (join sg 200 (ss "http://a/b/c/d;p?q") (ss "g/../h") true) /\ same_uri (split sg 200 (ss "http://a/b/c/g;x=1/y")) (join sg 200 (ss "http://a/b/c/d;p?q") (ss "g;x=1/./y") true) /\ same_uri (split sg 200 (ss "http://a/b/c/y")) (join sg 200 (ss "http://a/b/c/d;p?q") (ss "g;x=1/../y") true) /\ same_uri (split sg 200 (ss "http://a/b/c/g?y/./x")) (join sg 200 (ss "http://a/b/c/d;p?q") (ss "g?y/./x") true) /\ same_uri (split sg 200 (ss "http://a/b/c/g?y/../x")) (join sg 200 (ss "http://a/b/c/d;p?q") (ss "g?y/../x") true) /\ same_uri (split sg 200 (ss "http://a/b/c/g#s/./x")) (join sg 200 (ss "http://a/b/c/d;p?q") (ss "g#s/./x") true) /\ same_uri (split sg 200 (ss "http://a/b/c/g#s/../x")) (join sg 200 (ss "http://a/b/c/d;p?q") (ss "g#s/../x") true) /\ same_uri (split sg 200 (ss "http:g")) (join sg 200 (ss "http://a/b/c/d;p?q") (ss "http:g") true).
Proof. run_sg. Qed.
(* test_uri.cpp:1650 *)
Example UriCompose_Empty : forall sg : bool, let p := (mkparts None None (mkpath false []) None None) in compose p = [].
Proof. run_sg. Qed.
(* test_uri.cpp:1655 *)
Example UriCompose_Scheme : forall sg : bool, let p := (mkparts (Some (ss "file")) None (mkpath false []) None None) in compose p = (ss "file:").
Proof. run_sg. Qed.
(* test_uri.cpp:1661 *)
Example UriCompose_Authority : forall sg : bool, let p := (mkparts None (Some (mkauth (Some (ss "username")) (ss "host") (Some (ss "123")))) (mkpath false []) None None) in compose p = (ss "//username@host:123") /\ match split_reference sg 200 (ss "//username@host:123") with Ok (Some x) => parts_eqb x p = true | _ => False end.
Proof. run_sg. Qed.
(* test_uri.cpp:1672 *)
Example UriCompose_AbsolutePath : forall sg : bool, let p := (mkparts None None (mkpath true [(ss "a"); (ss "b"); []]) None None) in compose p = (ss "/a/b/") /\ match split_reference sg 200 (ss "/a/b/") with Ok (Some x) => parts_eqb x p = true | _ => False end.
Proof. run_sg. Qed.
(* test_uri.cpp:1683 *)
Example UriCompose_RelativePath : forall sg : bool, let p := (mkparts None None (mkpath false [(ss "a"); (ss "b"); []]) None None) in compose p = (ss "a/b/") /\ match split_reference sg 200 (ss "a/b/") with Ok (Some x) => parts_eqb x p = true | _ => False end.
Proof. run_sg. Qed.
(* test_uri.cpp:1693 *)
Example UriCompose_Query : forall sg : bool, let p := (mkparts None None (mkpath false []) (Some (ss "query")) None) in compose p = (ss "?query") /\ match split_reference sg 200 (ss "?query") with Ok (Some x) => parts_eqb x p = true | _ => False end.
Proof. run_sg. Qed.
(* test_uri.cpp:1701 *)
Example UriCompose_Fragment : forall sg : bool, let p := (mkparts None None (mkpath false []) None (Some (ss "fragment"))) in compose p = (ss "#fragment") /\ match split_reference sg 200 (ss "#fragment") with Ok (Some x) => parts_eqb x p = true | _ => False end.
Proof. run_sg. Qed.
(* test_uri.cpp:1709 *)
Example UriCompose_EmptyStrings : forall sg : bool, let p := (mkparts None (Some (mkauth (Some []) (ss "foo.com") (Some []))) (mkpath false [(ss "segment")]) (Some []) (Some [])) in match split_reference sg 200 (compose p) with Ok (Some x) => parts_eqb p x = true | _ => False end.
Proof. run_sg. Qed.
(* test_uri.cpp:1736 *)
Example PartsValid_SchemeEmpty : forall sg : bool, let p := (mkparts None None (mkpath false []) None None) in parts_valid sg 200 p = Ok false.
Proof. run_sg. Qed.
(* test_uri.cpp:1742 *)
Example PartsValid_SchemeSimple : forall sg : bool, let p := (mkparts (Some (ss "scheme")) None (mkpath false []) None None) in parts_valid sg 200 p = Ok true.
Proof. run_sg. Qed.
(* test_uri.cpp:1749 *)
Example PartsValid_SchemeLeadingDigit : forall sg : bool, let p := (mkparts (Some (ss "123")) None (mkpath false []) None None) in parts_valid sg 200 p = Ok false.
Proof. run_sg. Qed.
(* test_uri.cpp:1756 *)
Example PartsValid_SchemeMixedCharacters : forall sg : bool, let p := (mkparts (Some (ss "a+123")) None (mkpath false []) None None) in parts_valid sg 200 p = Ok true.
Proof. run_sg. Qed.
(* test_uri.cpp:1764 *)
Example PartsValid_AuthorityUserinfo : forall sg : bool, let p := (mkparts (Some (ss "scheme")) (Some (mkauth (Some (ss "userinfo")) (ss "host") None)) (mkpath false []) None None) in parts_valid sg 200 p = Ok true /\ match parts_valid sg 200 p, split sg 200 (compose p) with Ok b, Ok o => b = match o with Some _ => true | None => false end | _, _ => False end.
Proof. run_sg. Qed.
(* test_punycode.cpp:26 *)
Example Punycode_Empty : match ModelPuny.encode []%N false with Ok (e, _) => e = [] | _ => False end /\ ModelPuny.decode [] = Ok (inl []%N).
Proof. run. Qed.
(* test_punycode.cpp:43 *)
Example Punycode_AsciiNoPlain : match ModelPuny.encode [65; 98]%N false with Ok (e, _) => e = (ss "Ab-") | _ => False end /\ ModelPuny.decode (ss "Ab-") = Ok (inl [65; 98]%N).
Proof. run. Qed.
(* test_punycode.cpp:65 *)
Example Punycode_AsciiWithPlainAllowed : match ModelPuny.encode [65; 98]%N true with Ok (e, _) => e = (ss "Ab") | _ => False end.
Proof. run. Qed.
(* test_punycode.cpp:74 *)
Example Punycode_Delimiter : match ModelPuny.encode [44; 45; 7104]%N false with Ok (e, _) => e = (ss ",--9cr") | _ => False end /\ ModelPuny.decode (ss ",--9cr") = Ok (inl [44; 45; 7104]%N).
Proof. run. Qed.
(* test_punycode.cpp:93 *)
Example Punycode_DecodeDelimiterCaps : ModelPuny.decode (ss ",--9CR") = Ok (inl [44; 45; 7104]%N).
Proof. run. Qed.
(* test_punycode.cpp:106 *)
Example Punycode_ArabicEgyptian : match ModelPuny.encode [1604; 1610; 1607; 1605; 1575; 1576; 1578; 1603; 1604; 1605; 1608; 1588; 1593; 1585; 1576; 1610; 1567]%N false with Ok (e, _) => e = (ss "egbpdaj6bu4bxfgehfvwxn") | _ => False end /\ ModelPuny.decode (ss "egbpdaj6bu4bxfgehfvwxn") = Ok (inl [1604; 1610; 1607; 1605; 1575; 1576; 1578; 1603; 1604; 1605; 1608; 1588; 1593; 1585; 1576; 1610; 1567]%N).
Proof. run. Qed.
(* test_punycode.cpp:124 *)
Example Punycode_ChineseSimplified : match ModelPuny.encode [20182; 20204; 20026; 20160; 20040; 19981; 35828; 20013; 25991]%N false with Ok (e, _) => e = (ss "ihqwcrb4cv8a8dqg056pqjye") | _ => False end /\ ModelPuny.decode (ss "ihqwcrb4cv8a8dqg056pqjye") = Ok (inl [20182; 20204; 20026; 20160; 20040; 19981; 35828; 20013; 25991]%N).
Proof. run. Qed.
(* test_punycode.cpp:143 *)
Example Punycode_ChineseTraditional : ModelPuny.decode (ss "ihqwctvzc91f659drss3x8bo0yb") = Ok (inl [20182; 20497; 29234; 20160; 40637; 19981; 35498; 20013; 25991]%N).
Proof. run. Qed.
(* test_punycode.cpp:159 *)
Example Punycode_Czech : match ModelPuny.encode [80; 114; 111; 269; 112; 114; 111; 115; 116; 283; 110; 101; 109; 108; 117; 118; 237; 269; 101; 115; 107; 121]%N false with Ok (e, _) => e = (ss "Proprostnemluvesky-uyb24dma41a") | _ => False end /\ ModelPuny.decode (ss "Proprostnemluvesky-uyb24dma41a") = Ok (inl [80; 114; 111; 269; 112; 114; 111; 115; 116; 283; 110; 101; 109; 108; 117; 118; 237; 269; 101; 115; 107; 121]%N).
Proof. run. Qed.
(* test_punycode.cpp:178 *)
Example Punycode_Hebrew : match ModelPuny.encode [1500; 1502; 1492; 1492; 1501; 1508; 1513; 1493; 1496; 1500; 1488; 1502; 1491; 1489; 1512; 1497; 1501; 1506; 1489; 1512; 1497; 1514]%N false with Ok (e, _) => e = (ss "4dbcagdahymbxekheh6e0a7fei0b") | _ => False end /\ ModelPuny.decode (ss "4dbcagdahymbxekheh6e0a7fei0b") = Ok (inl [1500; 1502; 1492; 1492; 1501; 1508; 1513; 1493; 1496; 1500; 1488; 1502; 1491; 1489; 1512; 1497; 1501; 1506; 1489; 1512; 1497; 1514]%N).
Proof. run. Qed.
(* test_punycode.cpp:196 *)
Example Punycode_HindiDevanagari : match ModelPuny.encode [2351; 2361; 2354; 2379; 2327; 2361; 2367; 2344; 2381; 2342; 2368; 2325; 2381; 2351; 2379; 2306; 2344; 2361; 2368; 2306; 2348; 2379; 2354; 2360; 2325; 2340; 2375; 2361; 2376; 2306]%N false with Ok (e, _) => e = (ss "i1baa7eci9glrd9b2ae1bj0hfcgg6iyaf8o0a1dig0cd") | _ => False end /\ ModelPuny.decode (ss "i1baa7eci9glrd9b2ae1bj0hfcgg6iyaf8o0a1dig0cd") = Ok (inl [2351; 2361; 2354; 2379; 2327; 2361; 2367; 2344; 2381; 2342; 2368; 2325; 2381; 2351; 2379; 2306; 2344; 2361; 2368; 2306; 2348; 2379; 2354; 2360; 2325; 2340; 2375; 2361; 2376; 2306]%N).
Proof. run. Qed.
(* test_punycode.cpp:215 *)
Example Punycode_JapaneseKanjiAndHiragana : match ModelPuny.encode [12394; 12380; 12415; 12435; 12394; 26085; 26412; 35486; 12434; 35441; 12375; 12390; 12367; 12428; 12394; 12356; 12398; 12363]%N false with Ok (e, _) => e = (ss "n8jok5ay5dzabd5bym9f0cm5685rrjetr6pdxa") | _ => False end /\ ModelPuny.decode (ss "n8jok5ay5dzabd5bym9f0cm5685rrjetr6pdxa") = Ok (inl [12394; 12380; 12415; 12435; 12394; 26085; 26412; 35486; 12434; 35441; 12375; 12390; 12367; 12428; 12394; 12356; 12398; 12363]%N).
Proof. run. Qed.
(* test_punycode.cpp:232 *)
Example Punycode_KoreanHangulSyllables : match ModelPuny.encode [49464; 44228; 51032; 47784; 46304; 49324; 46988; 46308; 51060; 54620; 44397; 50612; 47484; 51060; 54644; 54620; 45796; 47732; 50620; 47560; 45208; 51339; 51012; 44620]%N false with Ok (e, _) => e = (ss "989aomsvi5e83db1d2a355cv1e0vak1dwrv93d5xbh15a0dt30a5jpsd879ccm6fea98c") | _ => False end /\ ModelPuny.decode (ss "989aomsvi5e83db1d2a355cv1e0vak1dwrv93d5xbh15a0dt30a5jpsd879ccm6fea98c") = Ok (inl [49464; 44228; 51032; 47784; 46304; 49324; 46988; 46308; 51060; 54620; 44397; 50612; 47484; 51060; 54644; 54620; 45796; 47732; 50620; 47560; 45208; 51339; 51012; 44620]%N).
Proof. run. Qed.
(* test_punycode.cpp:251 *)
Example Punycode_RussianCyrillic : match ModelPuny.encode [1087; 1086; 1095; 1077; 1084; 1091; 1078; 1077; 1086; 1085; 1080; 1085; 1077; 1075; 1086; 1074; 1086; 1088; 1103; 1090; 1087; 1086; 1088; 1091; 1089; 1089; 1082; 1080]%N false with Ok (e, _) => e = (ss "b1abfaaepdrnnbgefbadotcwatmq2g4l") | _ => False end /\ ModelPuny.decode (ss "b1abfaaepdrnnbgefbadotcwatmq2g4l") = Ok (inl [1087; 1086; 1095; 1077; 1084; 1091; 1078; 1077; 1086; 1085; 1080; 1085; 1077; 1075; 1086; 1074; 1086; 1088; 1103; 1090; 1087; 1086; 1088; 1091; 1089; 1089; 1082; 1080]%N).
Proof. run. Qed.
(* test_punycode.cpp:270 *)
Example Punycode_Spanish : match ModelPuny.encode [80; 111; 114; 113; 117; 233; 110; 111; 112; 117; 101; 100; 101; 110; 115; 105; 109; 112; 108; 101; 109; 101; 110; 116; 101; 104; 97; 98; 108; 97; 114; 101; 110; 69; 115; 112; 97; 241; 111; 108]%N false with Ok (e, _) => e = (ss "PorqunopuedensimplementehablarenEspaol-fmd56a") | _ => False end /\ ModelPuny.decode (ss "PorqunopuedensimplementehablarenEspaol-fmd56a") = Ok (inl [80; 111; 114; 113; 117; 233; 110; 111; 112; 117; 101; 100; 101; 110; 115; 105; 109; 112; 108; 101; 109; 101; 110; 116; 101; 104; 97; 98; 108; 97; 114; 101; 110; 69; 115; 112; 97; 241; 111; 108]%N).
Proof. run. Qed.
(* test_punycode.cpp:291 *)
Example Punycode_Vietnamese : match ModelPuny.encode [84; 7841; 105; 115; 97; 111; 104; 7885; 107; 104; 244; 110; 103; 116; 104; 7875; 99; 104; 7881; 110; 243; 105; 116; 105; 7871; 110; 103; 86; 105; 7879; 116]%N false with Ok (e, _) => e = (ss "TisaohkhngthchnitingVit-kjcr8268qyxafd2f1b9g") | _ => False end /\ ModelPuny.decode (ss "TisaohkhngthchnitingVit-kjcr8268qyxafd2f1b9g") = Ok (inl [84; 7841; 105; 115; 97; 111; 104; 7885; 107; 104; 244; 110; 103; 116; 104; 7875; 99; 104; 7881; 110; 243; 105; 116; 105; 7871; 110; 103; 86; 105; 7879; 116]%N).
Proof. run. Qed.
(* test_punycode.cpp:312 *)
Example Punycode_ExampleL : match ModelPuny.encode [51; 24180; 66; 32068; 37329; 20843; 20808; 29983]%N false with Ok (e, _) => e = (ss "3B-ww4c5e180e575a65lsy2b") | _ => False end /\ ModelPuny.decode (ss "3B-ww4c5e180e575a65lsy2b") = Ok (inl [51; 24180; 66; 32068; 37329; 20843; 20808; 29983]%N).
Proof. run. Qed.
(* test_punycode.cpp:329 *)
Example Punycode_ExampleM : match ModelPuny.encode [23433; 23460; 22856; 32654; 24693; 45; 119; 105; 116; 104; 45; 83; 85; 80; 69; 82; 45; 77; 79; 78; 75; 69; 89; 83]%N false with Ok (e, _) => e = (ss "-with-SUPER-MONKEYS-pc58ag80a8qai00g7n9n") | _ => False end /\ ModelPuny.decode (ss "-with-SUPER-MONKEYS-pc58ag80a8qai00g7n9n") = Ok (inl [23433; 23460; 22856; 32654; 24693; 45; 119; 105; 116; 104; 45; 83; 85; 80; 69; 82; 45; 77; 79; 78; 75; 69; 89; 83]%N).
Proof. run. Qed.
(* test_punycode.cpp:348 *)
Example Punycode_ExampleN : match ModelPuny.encode [72; 101; 108; 108; 111; 45; 65; 110; 111; 116; 104; 101; 114; 45; 87; 97; 121; 45; 12381; 12428; 12382; 12428; 12398; 22580; 25152]%N false with Ok (e, _) => e = (ss "Hello-Another-Way--fc4qua05auwb3674vfr0b") | _ => False end /\ ModelPuny.decode (ss "Hello-Another-Way--fc4qua05auwb3674vfr0b") = Ok (inl [72; 101; 108; 108; 111; 45; 65; 110; 111; 116; 104; 101; 114; 45; 87; 97; 121; 45; 12381; 12428; 12382; 12428; 12398; 22580; 25152]%N).
Proof. run. Qed.
(* test_punycode.cpp:367 *)
Example Punycode_ExampleO : match ModelPuny.encode [12402; 12392; 12388; 23627; 26681; 12398; 19979; 50]%N false with Ok (e, _) => e = (ss "2-u9tlzr9756bt3uc0v") | _ => False end /\ ModelPuny.decode (ss "2-u9tlzr9756bt3uc0v") = Ok (inl [12402; 12392; 12388; 23627; 26681; 12398; 19979; 50]%N).
Proof. run. Qed.
(* test_punycode.cpp:384 *)
Example Punycode_ExampleP : match ModelPuny.encode [77; 97; 106; 105; 12391; 75; 111; 105; 12377; 12427; 53; 31186; 21069]%N false with Ok (e, _) => e = (ss "MajiKoi5-783gue6qz075azm5e") | _ => False end /\ ModelPuny.decode (ss "MajiKoi5-783gue6qz075azm5e") = Ok (inl [77; 97; 106; 105; 12391; 75; 111; 105; 12377; 12427; 53; 31186; 21069]%N).
Proof. run. Qed.
(* test_punycode.cpp:402 *)
Example Punycode_ExampleQ : match ModelPuny.encode [12497; 12501; 12451; 12540; 100; 101; 12523; 12531; 12496]%N false with Ok (e, _) => e = (ss "de-jg4avhby1noc0d") | _ => False end /\ ModelPuny.decode (ss "de-jg4avhby1noc0d") = Ok (inl [12497; 12501; 12451; 12540; 100; 101; 12523; 12531; 12496]%N).
Proof. run. Qed.
(* test_punycode.cpp:419 *)
Example Punycode_ExampleR : match ModelPuny.encode [12381; 12398; 12473; 12500; 12540; 12489; 12391]%N false with Ok (e, _) => e = (ss "d9juau41awczczp") | _ => False end /\ match ModelPuny.encode [12381; 12398; 12473; 12500; 12540; 12489; 12391]%N false with Ok (_, b) => b = true | _ => False end /\ ModelPuny.decode (ss "d9juau41awczczp") = Ok (inl [12381; 12398; 12473; 12500; 12540; 12489; 12391]%N).
Proof. run. Qed.
(* test_punycode.cpp:438 *)
Example Punycode_ExampleS : match ModelPuny.encode [45; 62; 32; 36; 49; 46; 48; 48; 32; 60; 45]%N false with Ok (e, _) => e = (ss "-> $1.00 <--") | _ => False end /\ match ModelPuny.encode [45; 62; 32; 36; 49; 46; 48; 48; 32; 60; 45]%N false with Ok (_, b) => b = false | _ => False end /\ ModelPuny.decode (ss "-> $1.00 <--") = Ok (inl [45; 62; 32; 36; 49; 46; 48; 48; 32; 60; 45]%N).
Proof. run. Qed.
(* test_punycode.cpp:457 *)
Example Punycode_BadInput : ModelPuny.decode (ss "eg{|}") = Ok (inr ModelPuny.bad_input).
Proof. run. Qed.
(* test_punycode.cpp:465 *)
Example Punycode_BadInputInPlainAsciiPart : ModelPuny.decode [chr 128; chr 45; chr 101; chr 103] = Ok (inr ModelPuny.bad_input).
Proof. run. Qed.
(* test_punycode.cpp:553 *)
Example Punycode_DecodeEncodeRoundTripEmpty : decode_encode_round_trip [].
Proof. run. Qed.
(* test_punycode.cpp:557 *)
Example Punycode_DecodeEncodeRoundTripDash : decode_encode_round_trip (ss "-").
Proof. run. Qed.
(* test_punycode.cpp:561 *)
Example Punycode_DecodeEncodeRoundTripLeadingDelimiter : decode_encode_round_trip (ss "-Ssu").
Proof. run. Qed.
(* test_punycode.cpp:565 *)
Example Punycode_DecodeEncodeRoundTripTrailingDelimiter : decode_encode_round_trip (ss "hello-").
Proof. run. Qed.
(* test_pctdecode.cpp:66 *)
Example UriPctDecode_all : pctdecode [] = Ok [] /\ pctdecode (ss "abcdef") = Ok (ss "abcdef") /\ pctdecode (ss "a%62%63def") = Ok (ss "abcdef") /\ pctdecode (ss "a%7ad") = Ok (ss "azd") /\ pctdecode (ss "a%7Ad") = Ok (ss "azd") /\ pctdecode (ss "ab%") = Ok (ss "ab%") /\ pctdecode (ss "ab%a") = Ok (ss "ab%a") /\ pctdecode (ss "ab%qq") = Ok (ss "ab%qq") /\ pctdecode (ss "ab%1q") = Ok (ss "ab%1q").
Proof. run. Qed.
