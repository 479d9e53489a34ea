(** What the constructors make of the widths of the signals.
    Widths are len() of the signals, hence at least 0; an absent optional signal is None. *)
From Coq Require Import ZArith List Bool.
From Verif Require Import Py M_axi M_axiargs.
Import ListNotations.
Open Scope Z_scope.

(** outcome of a constructor; Py.v has no ZeroDivisionError *)
Inductive made (A : Type) := Made (a : A) | Raises (e : exc) | RaisesZeroDivision.
Arguments Made {A} a. Arguments Raises {A} e. Arguments RaisesZeroDivision {A}.
Definition mbind {A B} (r : made A) (k : A -> made B) : made B :=
  match r with Made a => k a | Raises e => Raises e | RaisesZeroDivision => RaisesZeroDivision end.

(** Python's // for ints *)
Definition pydiv (a b : Z) : made Z := if b =? 0 then RaisesZeroDivision else Made (a / b).

(** axis.py 300-301, 317-330, 343-345: (byte_lanes, byte_size) of AxiStreamSource, AxiStreamSink and AxiStreamMonitor.
    [width]: len(tdata), [keep]: len(tkeep), [bsize] and [blanes]: the arguments *)
Definition stream_geom (width : Z) (keep bsize blanes : option Z) : made (Z * Z) :=
  mbind (match keep with
         | Some n => match bsize, blanes with None, None => Made n | _, _ => Raises ValueError end
         | None =>
             match blanes, bsize with
             | Some n, None => Made n
             | Some _, Some _ => Raises ValueError
             | None, Some s => pydiv width s
             | None, None => Made (width / 8)
             end
         end) (fun lanes =>
  mbind (pydiv width lanes) (fun size =>
  if lanes * size =? width then Made (lanes, size) else Raises ValueError)).

(** the assertions that the memory-mapped endpoints share: byte strobes and data width *)
Definition data_geom (width : Z) (strb : option Z) : made Z :=
  let lanes := width / 8 in
  if match strb with Some n => lanes =? n | None => true end then
    if lanes * 8 =? width then Made lanes else Raises AssertionError
  else Raises AssertionError.

(** axi_master.py 227-235, 271-275 / 667-679, 708-710; axi_slave.py 63-72, 85-89 / 229-236, 251-253: byte_lanes of one half.
    [strb]: wstrb, None for the read half; [id], [rid]: widths of awid and bid, or arid and rid *)
Definition axi_geom (width : Z) (strb : option Z) (id rid : Z) : made Z :=
  mbind (data_geom width strb) (fun lanes => if rid =? id then Made lanes else Raises AssertionError).
(** axil_master.py 119-123, 143-145 / 378-381, 399; axil_slave.py 61-65, 81-83 / 202; apb.py 151-155, 177-179; 482-488, 505-507 *)
Definition lite_geom (width : Z) (strb : option Z) : made Z := data_geom width strb.
