(** Data for [Orderly.orderly], found by a search outside of Coq: per level a list
    of row orders and for every partial matrix of the level the position of the
    order that makes it greater (0 where none is known). Wrong data could make
    the search longer, not incomplete. *)
From Coq Require Import List.
Import ListNotations.

Definition prune_27_10_1_5 : list (list (list nat) * list nat) := [([[]],
   []);
  ([[]],
   []);
  ([[]],
   []);
  ([[];[0;1;2;4;3;5]],
   [0;0;0;1;1]);
  ([[]],
   []);
  ([[];[0;2;1;3;4;6;5;7];[0;1;2;4;3;6;5;7];[0;1;2;5;6;3;4;7];[0;3;4;1;2;5;6;7];[0;1;2;3;4;7];[0;1;2;3;4;6;5;7];[0;1;2;4;3;5;6;7];[0;2;1;3;4;5;6;7]],
   [0;0;1;2;0;2;3;4;0;5;5;5;5;3;3;3;4;4;0;6;6;6;7;7;8;0;6;6;6;7;7;7;6;6;6;6;6;6;6;6;6;7]);
  ([[];[0;1;2;3;4;5;6;8]],
   [0;1]);
  ([[];[0;1;2;5;6;3;4;7;8;9];[0;3;4;1;2;5;6;7;8;9];[0;1;2;4;3;6;5;7;8;9];[0;2;1;3;4;6;5;7;8;9];[0;1;2;3;4;5;6;8;7;9];[0;5;6;8;7;9];[0;2;1;3;4;6;5;8;7;9];[0;1;2;3;4;7;8;5;6;9];[0;1;2;4;3;6;5;8;7;9];[0;5;6;7;8;9];[0;1;2;8;7;9];[0;1;2;3;4;5;6;9];[0;1;2;3;4;6;5;8;7;9];[0;1;2;4;3;5;6;8;7;9];[0;1;2;3;4;6;5;7;8;9];[0;1;2;4;3;5;6;7;8;9]],
   [0;0;1;2;2;1;3;3;4;0;5;5;5;5;5;5;5;5;5;6;7;8;7;9;9;8;8;9;0;0;7;0;2;9;2;0;7;9;9;8;8;8;8;8;8;8;8;8;8;9;0;0;0;8;8;2;2;8;10;3;3;11;12;3;3;3;12;12;12;3;3;3;12;12;12;0;12;12;1;4;0;4;3;3;12;12;3;12;3;3;12;12;3;12;12;12;12;12;12;12;12;12;12;13;13;14;0;13;14;8;13;13;13;13;13;14;12;12;12;12;12;12;12;12;12;12;5;5;5;5;5;5;5;5;5;12;12;12;12;12;12;12;5;5;5;5;5;5;12;12;12;12;5;5;5;12;12;12;12;12;12;12;12;12;12;12;12;8;8;8;8;8;15;15;15;15;12;8;8;8;15;15;8;15;15;15;12;12;12;12;8;8;8;8;12;8;1;1;16;1;13;13;12;8;1;2;0;14;13;13;13;13;13;13;13;13;13;13;16;16;16;8;8;14;14;8;14;5;5;5;5;5;5;5;5;5;5;5;5;5;5;5;5;5;5;5;5;5;5;5;5;5;5;5;5;5;5;5;5;5;5;5;5;5;5;5;5;5;5;5;5;5;5;5;5;5;5;5;5;5;5;5;5;5;5;5;5;5;5;5;5;5;5;5;5;5;5;5;15;15;15;15;5;5;5;15;15;15;15;15;15;15;5;5;5;5;5;5;15;15;15;15;15;15;15;15;15;15;5;5;5;5;5;5;5;5;5;16]);
  ([[];[0;1;2;4;3;6;5;8;7;10];[0;1;2;5;6;3;4;9;10;7];[0;1;2;3;4;5;6;7;8;10]],
   [0;0;0;0;1;0;0;0;0;2;0;3])]%nat.

Definition prune_28_12_6_4 : list (list (list nat) * list nat) := [([[]],
   []);
  ([[];[1;0;2;3];[0;1;3];[0;2;1;3]],
   [0;0;0;0;0;0;0;0;1;1;2;0;0;3;3;3;3;3;1;1;1;0;0;2;2;2;2;2;3;3;3;1;1;0;2;2;2;2;3;3;1;0;0;1;1;0;3;3;3;3;3;1;1;0;0;0;1;0;0;1;1;3;3;3;1;0;1;3;3;3;2;2;3;3;2;2;2;2;3;2;2;2;2;2;2;2;1;2;0;1;1;3;3;2;1;1;1;3;3;2;2;1;3;1;2;3;2;1;2;1;1;3;3;2;2;2;1;2;1;2;1;2;3;2;2;3;2;1;2;2;1;2;3;2;2;2;2;1;2;2]);
  ([[];[1;0;2;3;4];[0;2;1;3;4];[0;1;2;4];[0;1;3;2;4];[0;3;4];[0;3;4;1];[1;0;2;4;3];[1;3;4;0];[0;2;1;4];[0;2;1;4;3];[2;3;4];[0;1;4];[1;0;3;2;4];[1;0;3;4];[2;3;0;4];[0;4;2;3]],
   [1;0;0;0;2;1;1;2;0;0;2;0;1;1;2;0;3;0;3;1;3;2;3;3;3;0;0;2;1;1;2;3;3;3;0;0;2;1;1;2;3;0;2;1;0;2;1;2;3;4;2;1;0;1;0;2;2;1;4;4;4;2;3;3;3;3;5;6;6;2;6;3;3;3;3;6;6;6;3;3;1;1;1;3;3;1;3;3;3;3;3;3;3;3;2;2;2;3;3;2;2;2;3;2;3;3;3;3;3;3;1;3;2;3;3;3;3;3;3;3;3;3;3;3;1;3;3;3;3;3;3;3;3;3;3;3;3;3;3;3;3;3;3;3;3;4;4;4;4;4;4;2;2;4;2;2;0;0;2;0;4;4;2;3;4;2;0;0;0;4;4;0;0;2;2;2;2;2;2;0;0;2;0;4;4;4;4;4;4;4;4;4;4;2;2;2;4;3;3;3;3;3;5;3;3;3;6;2;6;3;3;3;3;3;6;6;6;6;3;7;7;0;0;3;3;3;3;3;8;0;3;3;3;3;3;2;2;2;2;3;2;2;2;2;3;3;3;3;3;2;2;3;3;3;0;0;2;3;3;3;3;3;3;3;3;2;0;3;2;2;3;3;3;3;3;3;3;3;3;3;3;3;3;3;3;3;3;3;3;3;3;3;3;3;4;3;3;4;4;4;9;9;4;10;0;9;9;0;0;10;0;4;4;4;4;4;4;1;1;1;1;4;4;0;11;3;3;3;3;3;3;3;4;4;4;3;3;4;4;0;0;0;9;9;0;0;10;0;9;0;0;10;1;1;1;1;0;0;0;0;1;1;1;1;1;0;4;4;4;4;4;4;4;4;4;4;4;4;4;4;4;4;4;4;4;4;4;4;4;4;0;0;0;4;0;1;0;4;4;1;3;3;3;3;3;3;3;3;3;3;3;3;3;0;3;9;9;9;9;9;3;0;0;3;3;10;3;1;1;3;3;1;3;3;3;3;3;3;0;0;0;2;0;0;0;2;0;4;4;2;1;1;2;0;4;4;4;4;4;4;4;4;4;1;1;1;4;4;0;3;0;2;2;4;2;2;2;2;2;4;2;2;2;2;2;2;3;2;4;4;4;4;4;4;4;4;1;1;2;3;1;4;4;4;2;2;0;3;3;3;3;3;3;3;3;3;3;3;3;3;3;3;3;3;3;3;3;3;3;3;3;3;3;3;3;3;3;3;3;3;3;3;3;3;3;3;0;1;2;5;6;2;1;1;2;3;3;3;3;3;3;3;3;3;3;3;3;3;3;3;3;3;3;3;3;3;3;3;3;0;0;2;1;1;2;0;2;1;0;2;1;2;0;0;2;0;2;0;0;2;1;0;0;2;0;2;1;1;1;1;1;1;1;1;1;1;0;0;0;1;1;2;2;2;2;2;2;2;2;2;2;2;2;2;2;2;1;2;1;1;2;3;3;3;3;3;3;3;3;3;3;3;3;3;3;3;3;3;3;3;3;3;3;3;3;3;3;3;3;3;12;0;4;4;2;2;2;4;4;4;4;2;4;4;2;2;4;2;4;4;2;2;2;4;12;2;4;2;2;4;13;4;4;4;4;4;4;12;4;1;2;4;2;2;2;2;2;4;4;2;2;2;4;12;4;13;4;4;4;4;2;4;4;12;4;2;1;2;2;2;4;4;2;4;2;4;12;4;4;2;0;2;4;4;4;4;4;4;12;4;4;2;2;4;2;2;12;4;4;2;0;2;4;2;2;4;4;3;3;3;3;3;3;3;3;3;3;3;3;3;3;3;3;3;3;3;3;3;3;3;3;3;3;3;3;3;3;3;3;3;3;3;3;3;3;3;3;3;3;3;3;3;3;3;3;3;3;3;3;3;3;3;3;3;3;3;3;3;3;3;3;3;3;3;3;3;3;3;3;3;3;3;3;3;3;3;3;3;3;3;3;3;3;3;3;3;3;3;3;3;3;3;3;3;3;3;3;3;3;3;3;3;3;3;3;3;3;3;3;3;3;3;3;3;3;3;3;3;3;3;3;3;3;3;3;3;3;3;4;4;3;4;4;4;4;4;4;4;3;4;4;4;4;4;4;4;3;4;4;4;4;4;4;4;4;4;4;4;4;4;4;4;4;4;4;4;4;4;4;4;4;4;3;3;3;3;3;3;3;3;3;4;4;4;4;4;4;4;3;4;2;2;2;2;2;2;4;4;2;3;4;2;1;0;0;2;0;4;4;2;3;1;1;2;1;1;1;2;0;4;4;4;4;4;4;4;4;4;1;1;4;4;1;1;2;2;2;4;2;2;2;2;2;2;4;4;4;4;4;4;2;2;4;2;2;2;2;2;4;2;2;4;2;2;2;2;2;4;2;2;2;2;2;2;4;4;4;4;4;4;3;3;3;3;3;3;3;3;3;3;3;3;3;3;3;3;3;3;3;3;3;3;3;3;3;3;3;3;3;3;3;3;3;3;3;3;3;3;3;3;3;3;3;3;3;3;3;3;3;3;3;3;3;3;3;3;3;3;3;3;3;3;3;3;3;3;3;3;3;3;3;3;3;3;3;3;3;3;3;3;4;3;3;3;4;4;4;4;4;4;4;4;4;4;4;4;3;3;3;3;3;3;3;3;3;4;3;3;3;2;3;4;3;3;3;2;0;2;14;3;2;2;4;4;4;4;4;4;4;4;15;4;7;15;4;7;2;2;2;2;4;4;4;2;2;2;2;4;2;2;2;2;2;2;2;2;4;2;2;2;2;2;2;2;2;2;2;2;4;4;4;4;4;4;4;4;4;4;4;3;3;3;3;3;3;3;3;3;3;3;3;3;3;3;3;3;3;3;3;3;3;4;3;3;3;3;3;3;3;4;3;4;4;3;4;3;3;3;3;9;9;16;4;9;9;16;4;9;4;9;9;4;4;3;3;3;3;3;3;3;3;3;3;3;3;3;3;3;3;3;3;3;3;3;3;3;3;3;3;3;3;3;3;3;3;3;3;3;3;3;3;3;1;3;3]);
  ([[];[0;1;2;3;5];[0;1;2;4;3;5];[0;2;1;3;4;5];[1;0;2;3;4;5];[1;0;2;4;3;5];[3;4;5;0;1];[0;2;1;3;5;4];[1;0;2;3;5];[1;0;2;3;5;4];[0;2;1;4;3;5];[0;3;4;1;2;5];[2;0;1;4;5];[0;2;1;3;5];[1;2;4;5];[0;1;3;2;4;5];[0;4;5];[0;1;3;2;5];[0;1;3;2;5;4];[1;4;5];[0;3;5;1;4;2];[1;0;3;2;4;5];[2;0;4;1;3;5];[1;3;0;4;2;5];[0;2;1;4;5];[0;2;4;1;5];[0;3;1;5;2;4];[3;0;5;1;2;4];[3;0;1;5;4];[0;2;4;1;5;3];[2;3;5];[3;4;1;5;0;2];[2;4;5;0;3];[3;4;5];[1;0;3;2;5];[0;1;4;5;2;3];[0;1;4;5];[0;1;5;4;3;2];[0;1;5;4;3];[0;1;4;5;2];[0;2;3;1;5;4];[0;2;3;1;5];[0;2;4;5];[0;2;4;5;1;3];[1;2;3;0;5];[1;2;3;0;5;4];[2;3;0;1;4;5];[2;3;0;1;5;4];[1;2;0;3;5];[2;0;3;1;5]],
   [1;2;0;2;3;2;0;0;2;0;3;0;2;2;3;1;1;1;1;1;1;1;1;2;0;0;0;2;2;3;3;2;0;4;4;0;3;3;5;0;3;3;2;2;2;2;2;2;2;2;2;4;4;2;4;3;4;2;2;3;1;1;1;1;1;1;1;1;1;1;1;1;1;0;0;6;0;0;7;0;0;4;4;0;0;4;4;4;4;4;4;1;1;1;1;1;1;1;1;1;1;1;1;1;1;1;1;1;1;1;1;1;1;1;0;1;1;1;0;1;3;0;8;0;3;0;0;3;3;3;8;9;9;0;0;3;3;3;3;0;2;4;2;3;2;0;0;2;3;2;0;4;0;3;5;0;3;3;2;2;2;2;2;2;2;4;2;4;3;4;2;2;3;1;1;1;1;1;1;1;1;1;1;1;1;1;1;1;2;2;2;2;0;2;2;10;1;0;1;3;8;8;2;1;1;1;11;3;10;2;2;2;1;1;0;2;2;0;1;1;1;2;3;1;1;3;0;0;2;1;1;1;1;1;1;1;1;1;2;0;2;7;0;2;1;1;1;1;1;1;1;0;2;7;0;2;4;4;0;12;0;0;5;7;12;1;1;1;1;1;1;1;2;2;2;2;2;2;2;2;2;1;1;1;4;2;4;4;2;1;4;4;2;4;4;1;2;2;3;8;1;13;4;0;0;0;0;0;3;4;3;0;1;1;1;1;1;1;1;1;1;1;1;1;1;1;1;14;14;3;15;15;3;1;1;1;1;1;1;1;1;1;1;1;1;1;1;1;1;1;1;1;1;1;1;1;1;1;1;1;1;1;1;1;1;1;1;1;1;1;1;1;1;1;1;1;1;1;1;1;1;1;1;1;14;14;1;14;14;14;14;14;15;15;15;15;15;15;0;0;15;16;1;1;1;1;1;1;1;1;1;1;1;1;1;1;1;1;1;1;1;1;1;1;1;1;1;1;1;1;1;1;1;1;1;1;1;1;1;1;1;1;1;1;1;1;1;1;1;1;1;14;17;0;17;0;18;17;17;0;0;18;16;3;3;3;3;3;3;3;0;0;0;0;0;15;17;17;17;17;17;0;1;1;1;1;1;1;1;1;1;1;1;1;1;1;1;1;1;1;1;1;1;1;1;1;1;1;1;1;1;1;1;1;1;1;1;1;1;1;1;1;1;1;1;1;1;1;1;1;1;1;1;1;10;10;10;10;10;10;10;10;10;10;15;15;15;15;15;15;15;15;15;15;0;0;15;0;0;0;10;10;15;15;15;15;15;10;15;10;19;19;1;1;1;1;1;1;1;1;1;1;1;1;1;1;1;1;1;1;1;1;1;1;1;1;1;1;1;1;1;1;1;1;1;1;1;1;1;1;1;1;1;1;1;1;1;1;1;1;1;1;1;1;1;1;1;1;1;1;1;10;10;1;1;1;10;10;10;10;10;10;17;0;0;10;10;0;17;20;0;10;10;17;9;9;21;12;22;17;17;23;23;22;10;10;10;10;10;10;10;10;10;10;10;8;8;8;10;21;10;21;21;21;21;10;10;10;1;1;1;1;1;1;1;1;1;1;1;1;1;1;1;1;1;1;1;1;1;1;1;1;1;1;1;1;1;1;1;1;1;1;1;1;1;1;1;1;1;1;1;1;1;1;1;1;1;1;1;1;1;1;1;1;1;1;1;1;1;1;1;1;1;1;1;1;1;1;1;1;1;1;24;1;1;1;24;24;24;24;24;17;17;25;17;25;18;0;26;25;26;25;17;17;17;9;18;9;12;12;18;17;0;0;0;27;28;25;25;25;29;29;29;21;0;30;25;31;30;8;8;8;8;21;21;21;21;21;21;21;21;21;21;21;21;32;1;1;1;1;1;1;1;1;1;1;1;1;1;1;1;1;1;1;1;1;1;1;1;1;1;1;1;1;1;1;17;17;17;17;17;17;17;17;17;17;10;10;10;10;10;8;8;33;34;0;0;19;1;1;1;1;1;1;1;1;1;1;1;1;1;1;1;1;1;1;1;1;1;1;1;1;1;1;1;1;1;1;1;1;1;1;1;1;1;1;1;1;1;1;1;1;1;1;1;1;1;1;1;1;1;1;1;1;1;1;1;1;1;1;1;1;1;1;1;1;1;1;1;1;1;1;1;1;1;1;1;1;1;1;1;1;1;1;1;1;1;1;1;0;1;1;1;1;0;0;0;0;15;4;15;0;0;15;0;0;0;0;34;0;0;0;0;0;0;17;0;0;0;0;0;0;4;17;0;4;17;17;17;17;34;0;0;17;17;17;34;17;17;17;17;17;17;17;0;1;1;1;1;1;1;1;1;1;1;1;1;1;1;1;1;1;1;1;1;1;1;1;1;1;1;0;0;35;0;4;35;4;0;0;35;3;3;3;3;3;3;3;3;3;3;4;3;4;4;4;4;4;3;3;4;3;4;1;0;21;21;3;3;3;21;21;3;0;21;3;21;21;3;1;1;1;1;1;1;36;0;0;37;38;0;21;39;35;21;36;0;21;0;0;21;40;41;42;0;0;43;43;0;0;0;42;0;21;0;0;0;21;21;21;0;0;21;21;21;21;21;21;21;21;21;21;0;1;1;1;1;1;1;1;1;1;1;1;1;1;1;1;17;17;17;17;17;17;17;36;17;17;39;18;0;39;39;39;39;34;39;35;0;36;39;0;0;35;3;3;3;3;3;3;3;3;3;3;3;3;3;3;3;3;3;3;3;3;3;3;3;3;3;3;44;3;0;0;0;3;3;0;0;0;0;3;3;0;0;3;3;45;45;45;3;3;0;3;3;33;0;0;0;0;3;0;3;3;3;1;1;1;1;1;1;1;1;1;1;1;1;1;1;1;1;1;1;1;1;1;1;1;1;1;1;1;1;1;1;1;1;1;1;1;1;1;1;1;1;1;1;1;1;1;1;1;1;1;36;1;1;1;1;1;1;1;1;36;0;0;15;13;13;13;15;15;15;13;13;15;13;13;13;13;15;13;13;13;13;13;0;13;7;0;0;0;13;0;0;13;13;13;13;13;21;21;21;13;7;7;21;13;46;0;13;13;46;15;15;15;15;15;15;15;15;15;15;15;15;15;15;15;15;15;15;15;15;15;15;15;15;15;15;15;15;15;15;15;15;4;4;15;4;4;4;4;4;15;15;15;15;46;4;4;4;15;4;4;4;4;4;4;15;15;15;15;15;15;4;46;15;1;1;1;1;1;1;1;1;1;1;1;1;1;1;1;1;1;1;1;1;1;1;1;1;1;1;1;1;1;1;1;1;1;1;1;13;15;13;15;13;13;13;13;13;13;13;13;13;0;13;13;13;13;13;13;0;7;33;15;15;15;15;15;15;15;15;15;15;15;15;15;15;15;15;15;15;4;15;4;4;4;15;15;15;0;0;15;4;4;4;4;4;15;15;15;15;4;15;47;0;0;0;0;0;21;0;2;2;2;2;3;3;2;2;0;15;15;15;15;15;15;15;15;15;15;15;15;15;15;15;2;2;2;2;2;2;2;2;2;2;2;2;2;2;2;4;4;2;2;4;15;15;15;15;15;2;2;2;2;2;46;46;15;2;3;3;3;3;15;15;15;3;3;15;3;3;3;3;15;2;2;2;2;2;2;2;2;2;2;2;2;2;2;2;3;3;2;2;3;3;2;3;3;3;3;3;3;2;2;2;2;3;2;15;2;15;2;15;15;15;15;15;2;2;15;15;2;15;15;15;15;15;15;15;15;15;15;15;15;15;15;15;15;15;15;15;15;2;2;2;2;2;2;2;2;2;2;2;2;2;2;2;2;2;2;2;4;4;4;15;2;2;2;2;3;2;15;15;2;15;15;15;2;2;3;1;1;1;1;1;1;1;1;1;1;1;1;1;1;1;1;1;1;1;1;1;1;1;1;1;1;1;1;1;1;1;1;1;1;1;1;1;1;1;1;1;2;2;3;0;3;3;0;0;4;0;0;0;0;0;0;0;0;3;0;4;0;4;4;3;3;1;1;1;1;1;1;1;1;1;1;1;1;0;1;1;1;1;1;1;0;1;1;1;1;1;1;1;1;1;1;1;0;1;1;48;1;1;1;1;1;13;1;1;1;1;13;1;17;3;3;1;49;15;0;0;0;3;15;4;0;15;15;3;3]);
  ([[];[0;2;4;1;6]],
   [0;0;0;1])]%nat.
