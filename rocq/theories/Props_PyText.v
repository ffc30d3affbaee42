(** Properties C277, C278: Str::format, count, replace, lower and upper against Python. *)
From Coq Require Import String Ascii ZArith List Bool Lia.
From Verif Require Import Outcome IntModel ListModel StrModel StrSpec PyTextSpec PyText ExTools.
Import ListNotations.
Open Scope Z_scope.

(** Doubled braces, the quotes around Str arguments, missing arguments. *)
Theorem C277_refuted : (exists s args r, py_format s args r /\ str_format s args <> r) /\
  (exists s x r, py_format s [x] r /\ str_format s [str_print x] <> r) /\
  exists s, (forall r, ~ py_format s [] r) /\ str_format s [] = s.
Proof. exact format_refuted. Qed.
Print Assumptions C277_refuted.

(** For arguments that print as texts without braces that are not empty, the results agree exactly if the braces only stand in {}. *)
Theorem C277_exact : forall s args r, py_format s args r -> Forall (fun x => x <> [] /\ braceless x) args ->
  (str_format s args = r <-> exists ts, ts <> [] /\ Forall braceless ts /\ s = glue ["{"; "}"]%char ts).
Proof. exact format_exact. Qed.
Print Assumptions C277_exact.

(** With at least one argument for each {} the results agree, whatever the arguments print. *)
Theorem C277_agrees : forall ts args, Forall braceless ts -> ts <> [] -> (length ts <= S (length args))%nat ->
  py_format (glue ["{"; "}"]%char ts) args (str_format (glue ["{"; "}"]%char ts) args).
Proof. exact format_agrees. Qed.
Print Assumptions C277_agrees.

(** With fewer arguments Python raises an exception; Str keeps the {} that are left. *)
Theorem C277_missing : forall ts args, Forall braceless ts -> (S (length args) < length ts)%nat ->
  (forall r, ~ py_format (glue ["{"; "}"]%char ts) args r) /\
  exists r us, str_format (glue ["{"; "}"]%char ts) args = r ++ glue ["{"; "}"]%char us /\ length us = (length ts - length args)%nat.
Proof. exact format_missing. Qed.
Print Assumptions C277_missing.

Example C277_example : glue ["{"; "}"]%char [chars "a "; chars " b "; []] = chars "a {} b {}" /\
  Forall braceless [chars "a "; chars " b "; []] /\
  str_format (chars "a {} b {}") [chars "1"; chars "2"; chars "3"] = chars "a 1 b 2" /\
  str_format (chars "a {} b {}") [chars "1"] = chars "a 1 b {}".
Proof.
  split; [reflexivity|]. split; [|split; reflexivity].
  repeat (apply Forall_cons; [split; cbn; intuition discriminate|]). constructor.
Qed.

(** lower() changes _, upper() changes 1, and replacing the empty string stops at null characters. *)
Theorem C278_refuted : (exists s, Forall (fun c => byte c < 128) s /\ str_lower s <> map py_lower_char s) /\
  (exists s, Forall (fun c => byte c < 128) s /\ str_upper s <> map py_upper_char s) /\
  exists s old new r, py_replace s old new r /\ str_replace s old new <> Ok r.
Proof. exact case_refuted. Qed.
Print Assumptions C278_refuted.

(** Exactly which texts lower() and upper() convert as Python does. *)
Theorem C278_case_exact : forall s, Forall (fun c => byte c < 128) s ->
  (str_lower s = map py_lower_char s <-> Forall (fun c => 65 <= byte c <= 90 \/ Z.testbit (byte c) 5 = true) s) /\
  (str_upper s = map py_upper_char s <-> Forall (fun c => 97 <= byte c <= 122 \/ Z.testbit (byte c) 5 = false) s).
Proof. exact case_python. Qed.
Print Assumptions C278_case_exact.

Theorem C278_count : forall s p, len s < INT_MAX -> exists n, py_count s p n /\ str_count s p = Ok n.
Proof. exact count_python. Qed.
Print Assumptions C278_count.

Theorem C278_replace : forall s old new, len s <= INT_MAX -> (old <> [] \/ forall c, In c new -> byte c <> 0) ->
  exists r, py_replace s old new r /\ str_replace s old new = Ok r.
Proof. exact replace_python. Qed.
Print Assumptions C278_replace.

Example C278_example : str_lower (chars "Hello, world 42") = chars "hello, world 42" /\ map py_lower_char (chars "Hello, world 42") = chars "hello, world 42" /\
  str_upper (chars "Hello, world 42") <> map py_upper_char (chars "Hello, world 42") /\ map py_upper_char (chars "Hello, world 42") = chars "HELLO, WORLD 42" /\
  str_count (chars "aaaa") (chars "aa") = Ok 2 /\ str_count (chars "abc") [] = Ok 4 /\
  str_replace (chars "aaaaa") (chars "aa") (chars "b") = Ok (chars "bba").
Proof. repeat split; try (vm_compute; reflexivity). vm_compute. discriminate. Qed.
