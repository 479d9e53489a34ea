(** Property theorems C05 (hexdump). *)
From Coq Require Import ZArith List Bool Lia.
From Verif Require Import Py S_flat M_sparse M_memory P_memory M_hexdump S_hexdump P_hexdump.
Import ListNotations.
Open Scope Z_scope.

(** C05: the lines of a dump of a bytes object, read back as text, are exactly the requested
    bytes, each line labelled with the address of its first byte (length None or non-zero). *)
Theorem C05_hexdump_lines_exact : forall data start length row prefix offset,
  are_bytes data -> 0 <= start -> 0 < row -> 0 <= offset -> length <> Some 0 ->
  let n := requested (zlen data) start length in
  exists lines,
    bytes_hexdump_lines data start length row prefix offset = Ok (map (app prefix) lines) /\
    zlen lines = (n + row - 1) / row /\
    concat (map (line_bytes row) lines) = zslice data start (start + n) /\
    concat (map (line_text row) lines) = map shown (zslice data start (start + n)) /\
    (forall i, 0 <= i < zlen lines -> line_label (znth [] lines i) = offset + start + i * row).
Proof.
  intros data start length row prefix offset H1 H2 H3 H4 H5 n. rewrite <- printable_shown.
  apply hexdump_lines_spec; auto.
Qed.
Print Assumptions C05_hexdump_lines_exact.

Example C05_nontrivial :
  let data := [72; 105; 127; 255; 58] in
  match bytes_hexdump_lines data 1 (Some 3) 2 [] 4096 with
  | Ok ls => map (line_bytes 2) ls = [[105; 127]; [255]] /\ map (line_text 2) ls = [[105; 46]; [46]] /\ map line_label ls = [4097; 4099]
  | Err _ => False
  end.
Proof. vm_compute. auto. Qed.

(** hexdump_str is one text whose lines are those of hexdump_lines (prefix without a newline), also if the data holds newlines *)
Theorem C05_hexdump_str_lines : forall data start length row prefix offset ls, ~ In 10 prefix ->
  bytes_hexdump_lines data start length row prefix offset = Ok ls ->
  exists s, bytes_hexdump_str data start length row prefix offset = Ok s /\ (ls = [] -> s = []) /\ (ls <> [] -> split_nl s = ls).
Proof.
  intros data start length row prefix offset ls Hp E. destruct (hexdump_str_spec data start length row prefix offset ls Hp E) as (s & E1 & E2). exists s. split; [exact E1|].
  destruct ls; split; auto; congruence.
Qed.
Print Assumptions C05_hexdump_str_lines.

Example C05_str_nontrivial :
  match bytes_hexdump_str [72; 10; 127; 255; 58] 1 (Some 3) 2 [] 4096 with
  | Ok s => map (line_bytes 2) (split_nl s) = [[10; 127]; [255]] /\ map line_label (split_nl s) = [4097; 4099]
  | Err _ => False
  end.
Proof. vm_compute. auto. Qed.

(** C05 for SparseMemory.hexdump_lines: always exact, also for length 0. *)
Theorem C05_sparse_hexdump_exact : forall size m a n prefix,
  sm_reachable size m -> 0 <= a < size -> 0 <= n -> a + n <= size ->
  exists lines,
    sm_hexdump_lines m a n prefix = Ok (map (app prefix) lines) /\
    zlen lines = (n + 15) / 16 /\
    concat (map (line_bytes 16) lines) = map (peek m) (zrange a (a + n)) /\
    concat (map (line_text 16) lines) = map shown (map (peek m) (zrange a (a + n))) /\
    (forall i, 0 <= i < zlen lines -> line_label (znth [] lines i) = a + 16 * i).
Proof. exact sm_hexdump_spec. Qed.
Print Assumptions C05_sparse_hexdump_exact.

(** C05 for Memory.hexdump_lines: exact for non-zero lengths (truncated at the end). *)
Theorem C05_memory_hexdump_exact_partial : forall size m a n prefix,
  sm_reachable size m -> size < 2 ^ 63 -> 0 <= a < size -> 0 < n ->
  let e := Z.min (a + n) size in
  exists lines,
    mem_hexdump_lines m a n prefix = Ok (map (app prefix) lines) /\
    zlen lines = (e - a + 15) / 16 /\
    concat (map (line_bytes 16) lines) = map (peek m) (zrange a e) /\
    concat (map (line_text 16) lines) = map shown (map (peek m) (zrange a e)) /\
    (forall i, 0 <= i < zlen lines -> line_label (znth [] lines i) = a + 16 * i).
Proof. exact mem_hexdump_spec. Qed.
Print Assumptions C05_memory_hexdump_exact_partial.

Example C05_memory_nontrivial :
  let m := fst (sm_write (sm_init 5000) 4090 [1;2;3;4;5;6;7;8]) in
  match mem_hexdump_lines m 4088 20 [42], sm_hexdump_lines m 4088 20 [42] with
  | Ok ls, Ok ls' => ls = ls' /\ zlen ls = 2 /\
      concat (map (fun l => line_bytes 16 (skipn 1 l)) ls) = [0;0;1;2;3;4;5;6;7;8] ++ zeros 10
  | _, _ => False
  end.
Proof. vm_compute. auto. Qed.

(** Missing case, refuted: asking Memory.hexdump for zero bytes dumps to the end of the memory. *)
Theorem C05_memory_hexdump_zero_refuted :
  exists size m a lines, sm_reachable size m /\ 0 <= a < size /\
    mem_hexdump_lines m a 0 [] = Ok lines /\ zlen lines = 63.
Proof.
  exists 1024, (sm_init 1024), 16. eexists. split; [now exists []|]. split; [lia|].
  split; [vm_compute; reflexivity|]. reflexivity.
Qed.
Print Assumptions C05_memory_hexdump_zero_refuted.
