(** Model of an address space (or any other object of address_space.py) as the target of a bus
    slave: axi_slave.py 95-96 and 259-260, axil_slave.py 89-90 and 208-209, apb.py 518-522 call
    [self.target.write(address, data)] and [self.target.read(address, length)], which are
    address_space.py 102-104 / 70-72 (a region or window) or 318-337 / 298-316 (an AddressSpace).
    Simplification: as in M_aspace.v a read or write of the target is one atomic step. *)
From Coq Require Import ZArith List Bool.
From Verif Require Import Py M_sparse M_memory M_buddy M_aspace.
Import ListNotations.
Open Scope Z_scope.

(** [target.write(address, data)] with data a bytes object; [i] is the object given as target *)
Definition as_write (lim : nat) (i : nat) (h : heap) (address : Z) (data : list Z) : heap * res unit :=
  wr_obj lim h i address (PBytes data).
(** [target.read(address, length)] *)
Definition as_read (lim : nat) (i : nat) (h : heap) (address length : Z) : heap * res (list Z) :=
  rd_obj lim h i address length.
