(** C46: portable and vectorised span matching. *)
From Verif Require Import Base StrModel StrProofs.

(** Every range string used by knfmt is good: "az", "AZaz09__", the blanks and the
    tab/newline set. *)
Example good_ranges_used :
  Forall good_ranges [s2b "az"; s2b "AZaz09__"; [SP; SP; FF; FF; TAB; TAB]; [TAB; TAB; NL; NL]].
Proof. repeat constructor. Qed.

(** Matching: for all data, including NUL and bytes above 127. *)
Theorem C46_match_native_default : forall str ranges garbage, good_ranges ranges ->
  KS_str_match_native str ranges garbage = Some (KS_str_match_default str ranges).
Proof. exact match_native_default. Qed.
Example C46_match_ex :
  KS_str_match_native (s2b "abcdefghijklmnopqrstuvwxyz012 x") (s2b "az09") (s2b "junk") = Some 29.
Proof. vm_compute; reflexivity. Qed.

(** The portable matcher returns the length of the longest prefix in the ranges. *)
Theorem C46_match_spec : forall str ranges n, Forall ascii7 ranges ->
  KS_str_match_default str ranges = n <->
  n <= length str /\ Forall (fun c => InRanges c ranges) (firstn n str) /\
  (forall c, nth_error str n = Some c -> ~ InRanges c ranges).
Proof. exact match_default_spec. Qed.

(** Matching until: for all data without NUL bytes. *)
Theorem C46_match_until_native_default_partial : forall str ranges garbage,
  good_ranges ranges -> nonul str ->
  KS_str_match_until_native str ranges garbage = Some (KS_str_match_until_default str ranges).
Proof. exact match_until_native_default. Qed.
Example C46_match_until_ex :
  KS_str_match_until_native (s2b "abcdefghijklmnopqrstuvwxyz012 x") (s2b "09") (s2b "junk") = Some 26.
Proof. vm_compute; reflexivity. Qed.

Theorem C46_match_until_spec : forall str ranges n, Forall ascii7 ranges ->
  KS_str_match_until_default str ranges = n <->
  n <= length str /\ Forall (fun c => ~ InRanges c ranges) (firstn n str) /\
  (forall c, nth_error str n = Some c -> InRanges c ranges).
Proof. exact match_until_spec. Qed.

(** With a NUL byte in the data the two versions disagree: the instruction ignores
    everything after the NUL in its 16 byte block. *)
Theorem C46_match_until_refuted : exists str ranges garbage, good_ranges ranges /\
  KS_str_match_until_native str ranges garbage <> Some (KS_str_match_until_default str ranges).
Proof.
  exists [NUL; TAB], [TAB; TAB], []. split.
  - repeat split; repeat constructor.
  - vm_compute. discriminate.
Qed.

(** Splitting by one byte: the parts are free of it and joining them gives the string. *)
Theorem C49_split_spec : forall d str, exists ps,
  KS_str_split str [d] = Some ps /\ ps <> [] /\ join [d] ps = str /\ Forall (fun p => ~ In d p) ps.
Proof. exact split_spec. Qed.
Theorem C49_split_unique : forall d ps qs, ps <> [] -> qs <> [] ->
  Forall (fun p => ~ In d p) ps -> Forall (fun p => ~ In d p) qs ->
  join [d] ps = join [d] qs -> ps = qs.
Proof. exact join_inj. Qed.
Example C49_split_ex : KS_str_split (s2b "/a//b") (s2b "/") = Some [[]; s2b "a"; []; s2b "b"].
Proof. vm_compute; reflexivity. Qed.

Print Assumptions C46_match_native_default.
Print Assumptions C46_match_spec.
Print Assumptions C46_match_until_native_default_partial.
Print Assumptions C46_match_until_spec.
Print Assumptions C46_match_until_refuted.
Print Assumptions C49_split_spec.
Print Assumptions C49_split_unique.
