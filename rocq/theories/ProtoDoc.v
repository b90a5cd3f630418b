(* The documentation of the protocol between domains, middleware/gateway/documentation/protocol/protocol.maintenance.md: for every message its
   number, the versions that have it, the table of what is sent, and the example: its YAML as a value and its bytes. Taken from the document
   by a script. *)
From Coq Require Import String ZArith List.
From Verif Require Import ArcModel ProtoModel.
Import ListNotations.
Local Open Scope Z_scope.

(* a row of a table, by its network type and size: a number of so many bytes, so many bytes, a string or binary of any size, the data of an XID
   (whose size is the sum of the two lengths before it; the tables have 32, which it is in the examples) *)
Inductive sent := Number (bytes : nat) | Fixed (bytes : nat) | Dynamic | Xid_data.
Record doc := { d_number : Z; d_versions : list Z; d_rows : list (string * sent); d_example : val; d_bytes : list Z }.

(* ## gateway_domain_connect_request *)
Definition doc_connect_request : doc :=
  {| d_number := 7200; d_versions := [1000; 1001; 1002; 1003; 1004];
     d_rows := [("execution"%string, Fixed 16); ("domain.id"%string, Fixed 16); ("domain.name.size"%string, Number 8); ("domain.name.data"%string, Dynamic); ("protocol.versions.size"%string, Number 8); ("protocol.versions.element"%string, Number 8)];
     d_example := values [V_bytes [112; 115; 203; 244; 20; 68; 74; 65; 135; 179; 0; 134; 241; 67; 252; 96];
      values [V_bytes [49; 93; 172; 198; 24; 46; 76; 18; 191; 152; 119; 239; 169; 36; 203; 134]; V_bytes [100; 111; 109; 97; 105; 110; 32; 65]];
      V_list [V_num 1004; V_num 1003; V_num 1002; V_num 1001; V_num 1000]];
     d_bytes := [112; 115; 203; 244; 20; 68; 74; 65; 135; 179; 0; 134; 241; 67; 252; 96; 49; 93; 172; 198; 24; 46; 76; 18; 191; 152; 119; 239; 169; 36; 203; 134; 0; 0; 0; 0; 0; 0; 0; 8; 100; 111; 109; 97; 105; 110; 32; 65; 0; 0; 0; 0; 0; 0; 0; 5; 0; 0; 0; 0; 0; 0; 3; 236; 0; 0; 0; 0; 0; 0; 3; 235; 0; 0; 0; 0; 0; 0; 3; 234; 0; 0; 0; 0; 0; 0; 3; 233; 0; 0; 0; 0; 0; 0; 3; 232] |}.
(* ## gateway_domain_connect_reply *)
Definition doc_connect_reply : doc :=
  {| d_number := 7201; d_versions := [1000; 1001; 1002; 1003; 1004];
     d_rows := [("execution"%string, Fixed 16); ("domain.id"%string, Fixed 16); ("domain.name.size"%string, Number 8); ("domain.name.data"%string, Dynamic); ("protocol.version"%string, Number 8)];
     d_example := values [V_bytes [112; 115; 203; 244; 20; 68; 74; 65; 135; 179; 0; 134; 241; 67; 252; 96];
      values [V_bytes [49; 93; 172; 198; 24; 46; 76; 18; 191; 152; 119; 239; 169; 36; 203; 134]; V_bytes [100; 111; 109; 97; 105; 110; 32; 65]];
      V_num 1000];
     d_bytes := [112; 115; 203; 244; 20; 68; 74; 65; 135; 179; 0; 134; 241; 67; 252; 96; 49; 93; 172; 198; 24; 46; 76; 18; 191; 152; 119; 239; 169; 36; 203; 134; 0; 0; 0; 0; 0; 0; 0; 8; 100; 111; 109; 97; 105; 110; 32; 65; 0; 0; 0; 0; 0; 0; 3; 232] |}.
(* ## gateway_domain_disconnect_request *)
Definition doc_disconnect_request : doc :=
  {| d_number := 7202; d_versions := [1001; 1002; 1003; 1004];
     d_rows := [("execution"%string, Fixed 16)];
     d_example := values [V_bytes [112; 115; 203; 244; 20; 68; 74; 65; 135; 179; 0; 134; 241; 67; 252; 96]];
     d_bytes := [112; 115; 203; 244; 20; 68; 74; 65; 135; 179; 0; 134; 241; 67; 252; 96] |}.
(* ## gateway_domain_disconnect_reply *)
Definition doc_disconnect_reply : doc :=
  {| d_number := 7203; d_versions := [1001; 1002; 1003; 1004];
     d_rows := [("execution"%string, Fixed 16)];
     d_example := values [V_bytes [112; 115; 203; 244; 20; 68; 74; 65; 135; 179; 0; 134; 241; 67; 252; 96]];
     d_bytes := [112; 115; 203; 244; 20; 68; 74; 65; 135; 179; 0; 134; 241; 67; 252; 96] |}.
(* ## domain_discovery_request *)
Definition doc_discovery_request : doc :=
  {| d_number := 7300; d_versions := [1000; 1001; 1002; 1003; 1004];
     d_rows := [("execution"%string, Fixed 16); ("domain.id"%string, Fixed 16); ("domain.name.size"%string, Number 8); ("domain.name.data"%string, Dynamic); ("content.services.size"%string, Number 8); ("content.services.element.size"%string, Number 8); ("content.services.element.data"%string, Dynamic); ("content.queues.size"%string, Number 8); ("content.queues.element.size"%string, Number 8); ("content.queues.element.data"%string, Dynamic)];
     d_example := values [V_bytes [112; 115; 203; 244; 20; 68; 74; 65; 135; 179; 0; 134; 241; 67; 252; 96];
      values [V_bytes [49; 93; 172; 198; 24; 46; 76; 18; 191; 152; 119; 239; 169; 36; 203; 134]; V_bytes [100; 111; 109; 97; 105; 110; 32; 65]];
      V_list [V_bytes [115; 101; 114; 118; 105; 99; 101; 49]; V_bytes [115; 101; 114; 118; 105; 99; 101; 50]; V_bytes [115; 101; 114; 118; 105; 99; 101; 51]];
      V_list [V_bytes [113; 117; 101; 117; 101; 49]; V_bytes [113; 117; 101; 117; 101; 50]; V_bytes [113; 117; 101; 117; 101; 51]]];
     d_bytes := [112; 115; 203; 244; 20; 68; 74; 65; 135; 179; 0; 134; 241; 67; 252; 96; 49; 93; 172; 198; 24; 46; 76; 18; 191; 152; 119; 239; 169; 36; 203; 134; 0; 0; 0; 0; 0; 0; 0; 8; 100; 111; 109; 97; 105; 110; 32; 65; 0; 0; 0; 0; 0; 0; 0; 3; 0; 0; 0; 0; 0; 0; 0; 8; 115; 101; 114; 118; 105; 99; 101; 49; 0; 0; 0; 0; 0; 0; 0; 8; 115; 101; 114; 118; 105; 99; 101; 50; 0; 0; 0; 0; 0; 0; 0; 8; 115; 101; 114; 118; 105; 99; 101; 51; 0; 0; 0; 0; 0; 0; 0; 3; 0; 0; 0; 0; 0; 0; 0; 6; 113; 117; 101; 117; 101; 49; 0; 0; 0; 0; 0; 0; 0; 6; 113; 117; 101; 117; 101; 50; 0; 0; 0; 0; 0; 0; 0; 6; 113; 117; 101; 117; 101; 51] |}.
(* ## domain_discovery_reply *)
Definition doc_discovery_reply : doc :=
  {| d_number := 7311; d_versions := [1004];
     d_rows := [("execution"%string, Fixed 16); ("domain.id"%string, Fixed 16); ("domain.name.size"%string, Number 8); ("domain.name.data"%string, Dynamic); ("content.services.size"%string, Number 8); ("content.services.element.name.size"%string, Number 8); ("content.services.element.name.data"%string, Dynamic); ("content.services.element.category.size"%string, Number 8); ("content.services.element.category.data"%string, Dynamic); ("content.services.element.transaction"%string, Number 2); ("content.services.element.timeout.duration"%string, Number 8); ("content.services.element.hops"%string, Number 8); ("content.queues.size"%string, Number 8); ("content.queues.element.name.size"%string, Number 8); ("content.queues.element.name.data"%string, Dynamic); ("content.queues.element.retry.count"%string, Number 8); ("content.queues.element.retry.delay"%string, Number 8); ("content.queues.element.enable.enqueue"%string, Number 1); ("content.queues.element.enable.dequeue"%string, Number 1)];
     d_example := values [V_bytes [112; 115; 203; 244; 20; 68; 74; 65; 135; 179; 0; 134; 241; 67; 252; 96];
      values [V_bytes [226; 246; 183; 195; 127; 115; 74; 9; 130; 160; 171; 21; 129; 178; 31; 165]; V_bytes [100; 111; 109; 97; 105; 110; 32; 66]];
      V_list [values [V_bytes [115; 101; 114; 118; 105; 99; 101; 49]; V_bytes [101; 120; 97; 109; 112; 108; 101]; V_num 1; V_num 90000000000; V_num 0]];
      V_list [values [V_bytes [113; 117; 101; 117; 101; 49]; values [V_num 10; V_num 4000000]; values [V_num 1; V_num 0]]]];
     d_bytes := [112; 115; 203; 244; 20; 68; 74; 65; 135; 179; 0; 134; 241; 67; 252; 96; 226; 246; 183; 195; 127; 115; 74; 9; 130; 160; 171; 21; 129; 178; 31; 165; 0; 0; 0; 0; 0; 0; 0; 8; 100; 111; 109; 97; 105; 110; 32; 66; 0; 0; 0; 0; 0; 0; 0; 1; 0; 0; 0; 0; 0; 0; 0; 8; 115; 101; 114; 118; 105; 99; 101; 49; 0; 0; 0; 0; 0; 0; 0; 7; 101; 120; 97; 109; 112; 108; 101; 0; 1; 0; 0; 0; 20; 244; 107; 4; 0; 0; 0; 0; 0; 0; 0; 0; 0; 0; 0; 0; 0; 0; 0; 0; 1; 0; 0; 0; 0; 0; 0; 0; 6; 113; 117; 101; 117; 101; 49; 0; 0; 0; 0; 0; 0; 0; 10; 0; 0; 0; 0; 0; 61; 9; 0; 1; 0] |}.
(* ## domain_discovery_topology_implicit_update *)
Definition doc_implicit_update : doc :=
  {| d_number := 7302; d_versions := [1002; 1003; 1004];
     d_rows := [("execution"%string, Fixed 16); ("domains.size"%string, Number 8); ("domains.element.id"%string, Fixed 16); ("domains.element.name.size"%string, Number 8); ("domains.element.name.data"%string, Dynamic)];
     d_example := values [V_bytes [112; 115; 203; 244; 20; 68; 74; 65; 135; 179; 0; 134; 241; 67; 252; 96];
      V_list [values [V_bytes [225; 246; 183; 195; 127; 115; 74; 9; 130; 160; 171; 21; 129; 178; 31; 162]; V_bytes [66]]]];
     d_bytes := [112; 115; 203; 244; 20; 68; 74; 65; 135; 179; 0; 134; 241; 67; 252; 96; 0; 0; 0; 0; 0; 0; 0; 1; 225; 246; 183; 195; 127; 115; 74; 9; 130; 160; 171; 21; 129; 178; 31; 162; 0; 0; 0; 0; 0; 0; 0; 1; 66] |}.
(* ## service_call *)
Definition doc_call : doc :=
  {| d_number := 3102; d_versions := [1003; 1004];
     d_rows := [("execution"%string, Fixed 16); ("service.name.size"%string, Number 8); ("service.name.data"%string, Dynamic); ("has_value"%string, Number 1); ("deadline.remaining"%string, Number 8); ("parent.span"%string, Fixed 8); ("parent.service.size"%string, Number 8); ("parent.service.data"%string, Dynamic); ("xid.formatID"%string, Number 8); ("xid.gtrid_length"%string, Number 8); ("xid.bqual_length"%string, Number 8); ("xid.data"%string, Xid_data); ("flags"%string, Number 8); ("buffer.type.size"%string, Number 8); ("buffer.type.data"%string, Dynamic); ("buffer.data.size"%string, Number 8); ("buffer.data.data"%string, Dynamic)];
     d_example := values [V_bytes [112; 115; 203; 244; 20; 68; 74; 65; 135; 179; 0; 134; 241; 67; 252; 96];
      V_bytes [115; 101; 114; 118; 105; 99; 101; 49];
      V_some (V_num 42000000000);
      values [V_bytes [128; 129; 130; 131; 132; 133; 134; 135]; V_bytes [112; 97; 114; 101; 110; 116; 45; 115; 101; 114; 118; 105; 99; 101]];
      V_xid 42 16 16 [91; 108; 27; 246; 242; 75; 72; 13; 189; 188; 222; 245; 76; 58; 8; 81; 91; 108; 27; 246; 242; 75; 72; 13; 189; 188; 222; 245; 76; 58; 8; 82];
      V_num 4;
      values [V_bytes [46; 98; 105; 110; 97; 114; 121; 47]; V_bytes [128; 129; 130; 131; 132; 133; 134; 135; 136; 137; 138; 139; 140; 141; 142; 143; 144; 145; 146; 147; 148; 149; 150; 151; 152; 153; 154; 155; 156; 157; 158; 159; 160; 161; 162; 163; 164; 165; 166; 167; 168; 169; 170; 171; 172; 173; 174; 175; 176; 177; 178; 179; 180; 181; 182; 183; 184; 185; 186; 187; 188; 189; 190; 191; 192; 193; 194; 195; 196; 197; 198; 199; 200; 201; 202; 203; 204; 205; 206; 207; 208; 209; 210; 211; 212; 213; 214; 215; 216; 217; 218; 219; 220; 221; 222; 223; 224; 225; 226; 227; 228; 229; 230; 231; 232; 233; 234; 235; 236; 237; 238; 239; 240; 241; 242; 243; 244; 245; 246; 247; 248; 249; 250; 251; 252; 253; 254; 255]]];
     d_bytes := [112; 115; 203; 244; 20; 68; 74; 65; 135; 179; 0; 134; 241; 67; 252; 96; 0; 0; 0; 0; 0; 0; 0; 8; 115; 101; 114; 118; 105; 99; 101; 49; 1; 0; 0; 0; 9; 199; 101; 36; 0; 128; 129; 130; 131; 132; 133; 134; 135; 0; 0; 0; 0; 0; 0; 0; 14; 112; 97; 114; 101; 110; 116; 45; 115; 101; 114; 118; 105; 99; 101; 0; 0; 0; 0; 0; 0; 0; 42; 0; 0; 0; 0; 0; 0; 0; 16; 0; 0; 0; 0; 0; 0; 0; 16; 91; 108; 27; 246; 242; 75; 72; 13; 189; 188; 222; 245; 76; 58; 8; 81; 91; 108; 27; 246; 242; 75; 72; 13; 189; 188; 222; 245; 76; 58; 8; 82; 0; 0; 0; 0; 0; 0; 0; 4; 0; 0; 0; 0; 0; 0; 0; 8; 46; 98; 105; 110; 97; 114; 121; 47; 0; 0; 0; 0; 0; 0; 0; 128; 128; 129; 130; 131; 132; 133; 134; 135; 136; 137; 138; 139; 140; 141; 142; 143; 144; 145; 146; 147; 148; 149; 150; 151; 152; 153; 154; 155; 156; 157; 158; 159; 160; 161; 162; 163; 164; 165; 166; 167; 168; 169; 170; 171; 172; 173; 174; 175; 176; 177; 178; 179; 180; 181; 182; 183; 184; 185; 186; 187; 188; 189; 190; 191; 192; 193; 194; 195; 196; 197; 198; 199; 200; 201; 202; 203; 204; 205; 206; 207; 208; 209; 210; 211; 212; 213; 214; 215; 216; 217; 218; 219; 220; 221; 222; 223; 224; 225; 226; 227; 228; 229; 230; 231; 232; 233; 234; 235; 236; 237; 238; 239; 240; 241; 242; 243; 244; 245; 246; 247; 248; 249; 250; 251; 252; 253; 254; 255] |}.
(* ## service_call_v2 *)
Definition doc_call_v2 : doc :=
  {| d_number := 3100; d_versions := [1000; 1001; 1002];
     d_rows := [("execution"%string, Fixed 16); ("service.name.size"%string, Number 8); ("service.name.data"%string, Dynamic); ("service.timeout.duration"%string, Number 8); ("parent.size"%string, Number 8); ("parent.data"%string, Dynamic); ("xid.formatID"%string, Number 8); ("xid.gtrid_length"%string, Number 8); ("xid.bqual_length"%string, Number 8); ("xid.data"%string, Xid_data); ("flags"%string, Number 8); ("buffer.type.size"%string, Number 8); ("buffer.type.data"%string, Dynamic); ("buffer.data.size"%string, Number 8); ("buffer.data.data"%string, Dynamic)];
     d_example := values [V_bytes [112; 115; 203; 244; 20; 68; 74; 65; 135; 179; 0; 134; 241; 67; 252; 96];
      V_bytes [115; 101; 114; 118; 105; 99; 101; 49];
      V_num 42000000000;
      V_bytes [112; 97; 114; 101; 110; 116; 45; 115; 101; 114; 118; 105; 99; 101];
      V_xid 42 16 16 [91; 108; 27; 246; 242; 75; 72; 13; 189; 188; 222; 245; 76; 58; 8; 81; 91; 108; 27; 246; 242; 75; 72; 13; 189; 188; 222; 245; 76; 58; 8; 82];
      V_num 4;
      values [V_bytes [46; 98; 105; 110; 97; 114; 121; 47]; V_bytes [128; 129; 130; 131; 132; 133; 134; 135; 136; 137; 138; 139; 140; 141; 142; 143; 144; 145; 146; 147; 148; 149; 150; 151; 152; 153; 154; 155; 156; 157; 158; 159; 160; 161; 162; 163; 164; 165; 166; 167; 168; 169; 170; 171; 172; 173; 174; 175; 176; 177; 178; 179; 180; 181; 182; 183; 184; 185; 186; 187; 188; 189; 190; 191; 192; 193; 194; 195; 196; 197; 198; 199; 200; 201; 202; 203; 204; 205; 206; 207; 208; 209; 210; 211; 212; 213; 214; 215; 216; 217; 218; 219; 220; 221; 222; 223; 224; 225; 226; 227; 228; 229; 230; 231; 232; 233; 234; 235; 236; 237; 238; 239; 240; 241; 242; 243; 244; 245; 246; 247; 248; 249; 250; 251; 252; 253; 254; 255]]];
     d_bytes := [112; 115; 203; 244; 20; 68; 74; 65; 135; 179; 0; 134; 241; 67; 252; 96; 0; 0; 0; 0; 0; 0; 0; 8; 115; 101; 114; 118; 105; 99; 101; 49; 0; 0; 0; 9; 199; 101; 36; 0; 0; 0; 0; 0; 0; 0; 0; 14; 112; 97; 114; 101; 110; 116; 45; 115; 101; 114; 118; 105; 99; 101; 0; 0; 0; 0; 0; 0; 0; 42; 0; 0; 0; 0; 0; 0; 0; 16; 0; 0; 0; 0; 0; 0; 0; 16; 91; 108; 27; 246; 242; 75; 72; 13; 189; 188; 222; 245; 76; 58; 8; 81; 91; 108; 27; 246; 242; 75; 72; 13; 189; 188; 222; 245; 76; 58; 8; 82; 0; 0; 0; 0; 0; 0; 0; 4; 0; 0; 0; 0; 0; 0; 0; 8; 46; 98; 105; 110; 97; 114; 121; 47; 0; 0; 0; 0; 0; 0; 0; 128; 128; 129; 130; 131; 132; 133; 134; 135; 136; 137; 138; 139; 140; 141; 142; 143; 144; 145; 146; 147; 148; 149; 150; 151; 152; 153; 154; 155; 156; 157; 158; 159; 160; 161; 162; 163; 164; 165; 166; 167; 168; 169; 170; 171; 172; 173; 174; 175; 176; 177; 178; 179; 180; 181; 182; 183; 184; 185; 186; 187; 188; 189; 190; 191; 192; 193; 194; 195; 196; 197; 198; 199; 200; 201; 202; 203; 204; 205; 206; 207; 208; 209; 210; 211; 212; 213; 214; 215; 216; 217; 218; 219; 220; 221; 222; 223; 224; 225; 226; 227; 228; 229; 230; 231; 232; 233; 234; 235; 236; 237; 238; 239; 240; 241; 242; 243; 244; 245; 246; 247; 248; 249; 250; 251; 252; 253; 254; 255] |}.
(* ## service_reply *)
Definition doc_reply : doc :=
  {| d_number := 3103; d_versions := [1003; 1004];
     d_rows := [("execution"%string, Fixed 16); ("code.result"%string, Number 4); ("code.user"%string, Number 8); ("transaction_state"%string, Number 1); ("buffer.type.size"%string, Number 8); ("buffer.type.data"%string, Dynamic); ("buffer.data.size"%string, Number 8); ("buffer.data.data"%string, Dynamic)];
     d_example := values [V_bytes [112; 115; 203; 244; 20; 68; 74; 65; 135; 179; 0; 134; 241; 67; 252; 96];
      V_num 11;
      V_num 42;
      V_num 0;
      values [V_bytes [46; 98; 105; 110; 97; 114; 121; 47]; V_bytes [128; 129; 130; 131; 132; 133; 134; 135; 136; 137; 138; 139; 140; 141; 142; 143; 144; 145; 146; 147; 148; 149; 150; 151; 152; 153; 154; 155; 156; 157; 158; 159; 160; 161; 162; 163; 164; 165; 166; 167; 168; 169; 170; 171; 172; 173; 174; 175; 176; 177; 178; 179; 180; 181; 182; 183; 184; 185; 186; 187; 188; 189; 190; 191; 192; 193; 194; 195; 196; 197; 198; 199; 200; 201; 202; 203; 204; 205; 206; 207; 208; 209; 210; 211; 212; 213; 214; 215; 216; 217; 218; 219; 220; 221; 222; 223; 224; 225; 226; 227; 228; 229; 230; 231; 232; 233; 234; 235; 236; 237; 238; 239; 240; 241; 242; 243; 244; 245; 246; 247; 248; 249; 250; 251; 252; 253; 254; 255]]];
     d_bytes := [112; 115; 203; 244; 20; 68; 74; 65; 135; 179; 0; 134; 241; 67; 252; 96; 0; 0; 0; 11; 0; 0; 0; 0; 0; 0; 0; 42; 0; 0; 0; 0; 0; 0; 0; 0; 8; 46; 98; 105; 110; 97; 114; 121; 47; 0; 0; 0; 0; 0; 0; 0; 128; 128; 129; 130; 131; 132; 133; 134; 135; 136; 137; 138; 139; 140; 141; 142; 143; 144; 145; 146; 147; 148; 149; 150; 151; 152; 153; 154; 155; 156; 157; 158; 159; 160; 161; 162; 163; 164; 165; 166; 167; 168; 169; 170; 171; 172; 173; 174; 175; 176; 177; 178; 179; 180; 181; 182; 183; 184; 185; 186; 187; 188; 189; 190; 191; 192; 193; 194; 195; 196; 197; 198; 199; 200; 201; 202; 203; 204; 205; 206; 207; 208; 209; 210; 211; 212; 213; 214; 215; 216; 217; 218; 219; 220; 221; 222; 223; 224; 225; 226; 227; 228; 229; 230; 231; 232; 233; 234; 235; 236; 237; 238; 239; 240; 241; 242; 243; 244; 245; 246; 247; 248; 249; 250; 251; 252; 253; 254; 255] |}.
(* ## service_reply_v2 *)
Definition doc_reply_v2 : doc :=
  {| d_number := 3101; d_versions := [1000; 1001; 1002];
     d_rows := [("execution"%string, Fixed 16); ("code.result"%string, Number 4); ("code.user"%string, Number 8); ("transaction.xid.formatID"%string, Number 8); ("transaction.xid.gtrid_length"%string, Number 8); ("transaction.xid.bqual_length"%string, Number 8); ("transaction.xid.data"%string, Xid_data); ("transaction.state"%string, Number 1); ("buffer.type.size"%string, Number 8); ("buffer.type.data"%string, Dynamic); ("buffer.data.size"%string, Number 8); ("buffer.data.data"%string, Dynamic)];
     d_example := values [V_bytes [112; 115; 203; 244; 20; 68; 74; 65; 135; 179; 0; 134; 241; 67; 252; 96];
      V_num 11;
      V_num 42;
      V_xid 42 16 16 [91; 108; 27; 246; 242; 75; 72; 13; 189; 188; 222; 245; 76; 58; 8; 81; 91; 108; 27; 246; 242; 75; 72; 13; 189; 188; 222; 245; 76; 58; 8; 82];
      V_num 0;
      values [V_bytes [46; 98; 105; 110; 97; 114; 121; 47]; V_bytes [128; 129; 130; 131; 132; 133; 134; 135; 136; 137; 138; 139; 140; 141; 142; 143; 144; 145; 146; 147; 148; 149; 150; 151; 152; 153; 154; 155; 156; 157; 158; 159; 160; 161; 162; 163; 164; 165; 166; 167; 168; 169; 170; 171; 172; 173; 174; 175; 176; 177; 178; 179; 180; 181; 182; 183; 184; 185; 186; 187; 188; 189; 190; 191; 192; 193; 194; 195; 196; 197; 198; 199; 200; 201; 202; 203; 204; 205; 206; 207; 208; 209; 210; 211; 212; 213; 214; 215; 216; 217; 218; 219; 220; 221; 222; 223; 224; 225; 226; 227; 228; 229; 230; 231; 232; 233; 234; 235; 236; 237; 238; 239; 240; 241; 242; 243; 244; 245; 246; 247; 248; 249; 250; 251; 252; 253; 254; 255]]];
     d_bytes := [112; 115; 203; 244; 20; 68; 74; 65; 135; 179; 0; 134; 241; 67; 252; 96; 0; 0; 0; 11; 0; 0; 0; 0; 0; 0; 0; 42; 0; 0; 0; 0; 0; 0; 0; 42; 0; 0; 0; 0; 0; 0; 0; 16; 0; 0; 0; 0; 0; 0; 0; 16; 91; 108; 27; 246; 242; 75; 72; 13; 189; 188; 222; 245; 76; 58; 8; 81; 91; 108; 27; 246; 242; 75; 72; 13; 189; 188; 222; 245; 76; 58; 8; 82; 0; 0; 0; 0; 0; 0; 0; 0; 8; 46; 98; 105; 110; 97; 114; 121; 47; 0; 0; 0; 0; 0; 0; 0; 128; 128; 129; 130; 131; 132; 133; 134; 135; 136; 137; 138; 139; 140; 141; 142; 143; 144; 145; 146; 147; 148; 149; 150; 151; 152; 153; 154; 155; 156; 157; 158; 159; 160; 161; 162; 163; 164; 165; 166; 167; 168; 169; 170; 171; 172; 173; 174; 175; 176; 177; 178; 179; 180; 181; 182; 183; 184; 185; 186; 187; 188; 189; 190; 191; 192; 193; 194; 195; 196; 197; 198; 199; 200; 201; 202; 203; 204; 205; 206; 207; 208; 209; 210; 211; 212; 213; 214; 215; 216; 217; 218; 219; 220; 221; 222; 223; 224; 225; 226; 227; 228; 229; 230; 231; 232; 233; 234; 235; 236; 237; 238; 239; 240; 241; 242; 243; 244; 245; 246; 247; 248; 249; 250; 251; 252; 253; 254; 255] |}.
(* ## transaction_resource_prepare_request *)
Definition doc_prepare_request : doc :=
  {| d_number := 5201; d_versions := [1000; 1001; 1002; 1003; 1004];
     d_rows := [("execution"%string, Fixed 16); ("xid.formatID"%string, Number 8); ("xid.gtrid_length"%string, Number 8); ("xid.bqual_length"%string, Number 8); ("xid.data"%string, Xid_data); ("resource"%string, Number 4); ("flags"%string, Number 8)];
     d_example := values [V_bytes [112; 115; 203; 244; 20; 68; 74; 65; 135; 179; 0; 134; 241; 67; 252; 96];
      V_xid 42 16 16 [91; 108; 27; 246; 242; 75; 72; 13; 189; 188; 222; 245; 76; 58; 8; 81; 91; 108; 27; 246; 242; 75; 72; 13; 189; 188; 222; 245; 76; 58; 8; 82];
      V_num 42;
      V_num 0];
     d_bytes := [112; 115; 203; 244; 20; 68; 74; 65; 135; 179; 0; 134; 241; 67; 252; 96; 0; 0; 0; 0; 0; 0; 0; 42; 0; 0; 0; 0; 0; 0; 0; 16; 0; 0; 0; 0; 0; 0; 0; 16; 91; 108; 27; 246; 242; 75; 72; 13; 189; 188; 222; 245; 76; 58; 8; 81; 91; 108; 27; 246; 242; 75; 72; 13; 189; 188; 222; 245; 76; 58; 8; 82; 0; 0; 0; 42; 0; 0; 0; 0; 0; 0; 0; 0] |}.
(* ## transaction_resource_prepare_reply *)
Definition doc_prepare_reply : doc :=
  {| d_number := 5202; d_versions := [1000; 1001; 1002; 1003; 1004];
     d_rows := [("execution"%string, Fixed 16); ("xid.formatID"%string, Number 8); ("xid.gtrid_length"%string, Number 8); ("xid.bqual_length"%string, Number 8); ("xid.data"%string, Xid_data); ("resource"%string, Number 4); ("state"%string, Number 4)];
     d_example := values [V_bytes [112; 115; 203; 244; 20; 68; 74; 65; 135; 179; 0; 134; 241; 67; 252; 96];
      V_xid 42 16 16 [91; 108; 27; 246; 242; 75; 72; 13; 189; 188; 222; 245; 76; 58; 8; 81; 91; 108; 27; 246; 242; 75; 72; 13; 189; 188; 222; 245; 76; 58; 8; 82];
      V_num 42;
      V_num 0];
     d_bytes := [112; 115; 203; 244; 20; 68; 74; 65; 135; 179; 0; 134; 241; 67; 252; 96; 0; 0; 0; 0; 0; 0; 0; 42; 0; 0; 0; 0; 0; 0; 0; 16; 0; 0; 0; 0; 0; 0; 0; 16; 91; 108; 27; 246; 242; 75; 72; 13; 189; 188; 222; 245; 76; 58; 8; 81; 91; 108; 27; 246; 242; 75; 72; 13; 189; 188; 222; 245; 76; 58; 8; 82; 0; 0; 0; 42; 0; 0; 0; 0] |}.
(* ## transaction_resource_commit_request *)
Definition doc_commit_request : doc :=
  {| d_number := 5203; d_versions := [1000; 1001; 1002; 1003; 1004];
     d_rows := [("execution"%string, Fixed 16); ("xid.formatID"%string, Number 8); ("xid.gtrid_length"%string, Number 8); ("xid.bqual_length"%string, Number 8); ("xid.data"%string, Xid_data); ("resource"%string, Number 4); ("flags"%string, Number 8)];
     d_example := values [V_bytes [112; 115; 203; 244; 20; 68; 74; 65; 135; 179; 0; 134; 241; 67; 252; 96];
      V_xid 42 16 16 [91; 108; 27; 246; 242; 75; 72; 13; 189; 188; 222; 245; 76; 58; 8; 81; 91; 108; 27; 246; 242; 75; 72; 13; 189; 188; 222; 245; 76; 58; 8; 82];
      V_num 42;
      V_num 0];
     d_bytes := [112; 115; 203; 244; 20; 68; 74; 65; 135; 179; 0; 134; 241; 67; 252; 96; 0; 0; 0; 0; 0; 0; 0; 42; 0; 0; 0; 0; 0; 0; 0; 16; 0; 0; 0; 0; 0; 0; 0; 16; 91; 108; 27; 246; 242; 75; 72; 13; 189; 188; 222; 245; 76; 58; 8; 81; 91; 108; 27; 246; 242; 75; 72; 13; 189; 188; 222; 245; 76; 58; 8; 82; 0; 0; 0; 42; 0; 0; 0; 0; 0; 0; 0; 0] |}.
(* ## transaction_resource_commit_reply *)
Definition doc_commit_reply : doc :=
  {| d_number := 5204; d_versions := [1000; 1001; 1002; 1003; 1004];
     d_rows := [("execution"%string, Fixed 16); ("xid.formatID"%string, Number 8); ("xid.gtrid_length"%string, Number 8); ("xid.bqual_length"%string, Number 8); ("xid.data"%string, Xid_data); ("resource"%string, Number 4); ("state"%string, Number 4)];
     d_example := values [V_bytes [112; 115; 203; 244; 20; 68; 74; 65; 135; 179; 0; 134; 241; 67; 252; 96];
      V_xid 42 16 16 [91; 108; 27; 246; 242; 75; 72; 13; 189; 188; 222; 245; 76; 58; 8; 81; 91; 108; 27; 246; 242; 75; 72; 13; 189; 188; 222; 245; 76; 58; 8; 82];
      V_num 42;
      V_num 0];
     d_bytes := [112; 115; 203; 244; 20; 68; 74; 65; 135; 179; 0; 134; 241; 67; 252; 96; 0; 0; 0; 0; 0; 0; 0; 42; 0; 0; 0; 0; 0; 0; 0; 16; 0; 0; 0; 0; 0; 0; 0; 16; 91; 108; 27; 246; 242; 75; 72; 13; 189; 188; 222; 245; 76; 58; 8; 81; 91; 108; 27; 246; 242; 75; 72; 13; 189; 188; 222; 245; 76; 58; 8; 82; 0; 0; 0; 42; 0; 0; 0; 0] |}.
(* ## transaction_resource_rollback_request *)
Definition doc_rollback_request : doc :=
  {| d_number := 5205; d_versions := [1000; 1001; 1002; 1003; 1004];
     d_rows := [("execution"%string, Fixed 16); ("xid.formatID"%string, Number 8); ("xid.gtrid_length"%string, Number 8); ("xid.bqual_length"%string, Number 8); ("xid.data"%string, Xid_data); ("resource"%string, Number 4); ("flags"%string, Number 8)];
     d_example := values [V_bytes [112; 115; 203; 244; 20; 68; 74; 65; 135; 179; 0; 134; 241; 67; 252; 96];
      V_xid 42 16 16 [91; 108; 27; 246; 242; 75; 72; 13; 189; 188; 222; 245; 76; 58; 8; 81; 91; 108; 27; 246; 242; 75; 72; 13; 189; 188; 222; 245; 76; 58; 8; 82];
      V_num 42;
      V_num 0];
     d_bytes := [112; 115; 203; 244; 20; 68; 74; 65; 135; 179; 0; 134; 241; 67; 252; 96; 0; 0; 0; 0; 0; 0; 0; 42; 0; 0; 0; 0; 0; 0; 0; 16; 0; 0; 0; 0; 0; 0; 0; 16; 91; 108; 27; 246; 242; 75; 72; 13; 189; 188; 222; 245; 76; 58; 8; 81; 91; 108; 27; 246; 242; 75; 72; 13; 189; 188; 222; 245; 76; 58; 8; 82; 0; 0; 0; 42; 0; 0; 0; 0; 0; 0; 0; 0] |}.
(* ## transaction_resource_rollback_reply *)
Definition doc_rollback_reply : doc :=
  {| d_number := 5206; d_versions := [1000; 1001; 1002; 1003; 1004];
     d_rows := [("execution"%string, Fixed 16); ("xid.formatID"%string, Number 8); ("xid.gtrid_length"%string, Number 8); ("xid.bqual_length"%string, Number 8); ("xid.data"%string, Xid_data); ("resource"%string, Number 4); ("state"%string, Number 4)];
     d_example := values [V_bytes [112; 115; 203; 244; 20; 68; 74; 65; 135; 179; 0; 134; 241; 67; 252; 96];
      V_xid 42 16 16 [91; 108; 27; 246; 242; 75; 72; 13; 189; 188; 222; 245; 76; 58; 8; 81; 91; 108; 27; 246; 242; 75; 72; 13; 189; 188; 222; 245; 76; 58; 8; 82];
      V_num 42;
      V_num 0];
     d_bytes := [112; 115; 203; 244; 20; 68; 74; 65; 135; 179; 0; 134; 241; 67; 252; 96; 0; 0; 0; 0; 0; 0; 0; 42; 0; 0; 0; 0; 0; 0; 0; 16; 0; 0; 0; 0; 0; 0; 0; 16; 91; 108; 27; 246; 242; 75; 72; 13; 189; 188; 222; 245; 76; 58; 8; 81; 91; 108; 27; 246; 242; 75; 72; 13; 189; 188; 222; 245; 76; 58; 8; 82; 0; 0; 0; 42; 0; 0; 0; 0] |}.
(* ## queue_group_enqueue_request *)
Definition doc_enqueue_request : doc :=
  {| d_number := 6100; d_versions := [1000; 1001; 1002; 1003; 1004];
     d_rows := [("execution"%string, Fixed 16); ("name.size"%string, Number 8); ("name.data"%string, Dynamic); ("xid.formatID"%string, Number 8); ("xid.gtrid_length"%string, Number 8); ("xid.bqual_length"%string, Number 8); ("xid.data"%string, Xid_data); ("message.id"%string, Fixed 16); ("message.attributes.properties.size"%string, Number 8); ("message.attributes.properties.data"%string, Dynamic); ("message.attributes.reply.size"%string, Number 8); ("message.attributes.reply.data"%string, Dynamic); ("message.attributes.available"%string, Number 8); ("message.payload.type.size"%string, Number 8); ("message.payload.type.data"%string, Dynamic); ("message.payload.data.size"%string, Number 8); ("message.payload.data.data"%string, Dynamic)];
     d_example := values [V_bytes [112; 115; 203; 244; 20; 68; 74; 65; 135; 179; 0; 134; 241; 67; 252; 96];
      V_bytes [113; 117; 101; 117; 101; 65];
      V_xid 42 16 16 [91; 108; 27; 246; 242; 75; 72; 13; 189; 188; 222; 245; 76; 58; 8; 81; 91; 108; 27; 246; 242; 75; 72; 13; 189; 188; 222; 245; 76; 58; 8; 82];
      values [V_bytes [230; 253; 159; 207; 134; 172; 71; 244; 165; 37; 47; 89; 126; 37; 252; 106]; values [V_bytes [112; 114; 111; 112; 101; 114; 116; 121; 32; 49; 58; 112; 114; 111; 112; 101; 114; 116; 121; 32; 50]; V_bytes [113; 117; 101; 117; 101; 66]; V_num 1559762216552100000]; values [V_bytes [46; 98; 105; 110; 97; 114; 121; 47]; V_bytes [128; 129; 130; 131; 132; 133; 134; 135; 136; 137; 138; 139; 140; 141; 142; 143; 144; 145; 146; 147; 148; 149; 150; 151; 152; 153; 154; 155; 156; 157; 158; 159; 160; 161; 162; 163; 164; 165; 166; 167; 168; 169; 170; 171; 172; 173; 174; 175; 176; 177; 178; 179; 180; 181; 182; 183; 184; 185; 186; 187; 188; 189; 190; 191; 192; 193; 194; 195; 196; 197; 198; 199; 200; 201; 202; 203; 204; 205; 206; 207; 208; 209; 210; 211; 212; 213; 214; 215; 216; 217; 218; 219; 220; 221; 222; 223; 224; 225; 226; 227; 228; 229; 230; 231; 232; 233; 234; 235; 236; 237; 238; 239; 240; 241; 242; 243; 244; 245; 246; 247; 248; 249; 250; 251; 252; 253; 254; 255]]]];
     d_bytes := [112; 115; 203; 244; 20; 68; 74; 65; 135; 179; 0; 134; 241; 67; 252; 96; 0; 0; 0; 0; 0; 0; 0; 6; 113; 117; 101; 117; 101; 65; 0; 0; 0; 0; 0; 0; 0; 42; 0; 0; 0; 0; 0; 0; 0; 16; 0; 0; 0; 0; 0; 0; 0; 16; 91; 108; 27; 246; 242; 75; 72; 13; 189; 188; 222; 245; 76; 58; 8; 81; 91; 108; 27; 246; 242; 75; 72; 13; 189; 188; 222; 245; 76; 58; 8; 82; 230; 253; 159; 207; 134; 172; 71; 244; 165; 37; 47; 89; 126; 37; 252; 106; 0; 0; 0; 0; 0; 0; 0; 21; 112; 114; 111; 112; 101; 114; 116; 121; 32; 49; 58; 112; 114; 111; 112; 101; 114; 116; 121; 32; 50; 0; 0; 0; 0; 0; 0; 0; 6; 113; 117; 101; 117; 101; 66; 21; 165; 99; 120; 211; 169; 240; 160; 0; 0; 0; 0; 0; 0; 0; 8; 46; 98; 105; 110; 97; 114; 121; 47; 0; 0; 0; 0; 0; 0; 0; 128; 128; 129; 130; 131; 132; 133; 134; 135; 136; 137; 138; 139; 140; 141; 142; 143; 144; 145; 146; 147; 148; 149; 150; 151; 152; 153; 154; 155; 156; 157; 158; 159; 160; 161; 162; 163; 164; 165; 166; 167; 168; 169; 170; 171; 172; 173; 174; 175; 176; 177; 178; 179; 180; 181; 182; 183; 184; 185; 186; 187; 188; 189; 190; 191; 192; 193; 194; 195; 196; 197; 198; 199; 200; 201; 202; 203; 204; 205; 206; 207; 208; 209; 210; 211; 212; 213; 214; 215; 216; 217; 218; 219; 220; 221; 222; 223; 224; 225; 226; 227; 228; 229; 230; 231; 232; 233; 234; 235; 236; 237; 238; 239; 240; 241; 242; 243; 244; 245; 246; 247; 248; 249; 250; 251; 252; 253; 254; 255] |}.
(* ## queue_group_enqueue_reply *)
Definition doc_enqueue_reply : doc :=
  {| d_number := 6102; d_versions := [1003; 1004];
     d_rows := [("execution"%string, Fixed 16); ("id"%string, Fixed 16); ("code"%string, Number 4)];
     d_example := values [V_bytes [112; 115; 203; 244; 20; 68; 74; 65; 135; 179; 0; 134; 241; 67; 252; 96];
      V_bytes [28; 152; 217; 75; 210; 154; 64; 97; 157; 138; 115; 0; 25; 220; 137; 31];
      V_num 30];
     d_bytes := [112; 115; 203; 244; 20; 68; 74; 65; 135; 179; 0; 134; 241; 67; 252; 96; 28; 152; 217; 75; 210; 154; 64; 97; 157; 138; 115; 0; 25; 220; 137; 31; 0; 0; 0; 30] |}.
(* ## queue_group_enqueue_reply_v1_2 *)
Definition doc_enqueue_reply_v1_2 : doc :=
  {| d_number := 6101; d_versions := [1000; 1001; 1002];
     d_rows := [("execution"%string, Fixed 16); ("id"%string, Fixed 16)];
     d_example := values [V_bytes [112; 115; 203; 244; 20; 68; 74; 65; 135; 179; 0; 134; 241; 67; 252; 96];
      V_bytes [49; 93; 172; 198; 24; 46; 76; 18; 191; 152; 119; 239; 169; 36; 203; 135]];
     d_bytes := [112; 115; 203; 244; 20; 68; 74; 65; 135; 179; 0; 134; 241; 67; 252; 96; 49; 93; 172; 198; 24; 46; 76; 18; 191; 152; 119; 239; 169; 36; 203; 135] |}.
(* ## queue_group_dequeue_request *)
Definition doc_dequeue_request : doc :=
  {| d_number := 6200; d_versions := [1000; 1001; 1002; 1003; 1004];
     d_rows := [("execution"%string, Fixed 16); ("name.size"%string, Number 8); ("name.data"%string, Dynamic); ("xid.formatID"%string, Number 8); ("xid.gtrid_length"%string, Number 8); ("xid.bqual_length"%string, Number 8); ("xid.data"%string, Xid_data); ("selector.properties.size"%string, Number 8); ("selector.properties.data"%string, Dynamic); ("selector.id"%string, Fixed 16); ("block"%string, Number 1)];
     d_example := values [V_bytes [112; 115; 203; 244; 20; 68; 74; 65; 135; 179; 0; 134; 241; 67; 252; 96];
      V_bytes [113; 117; 101; 117; 101; 65];
      V_xid 42 16 16 [91; 108; 27; 246; 242; 75; 72; 13; 189; 188; 222; 245; 76; 58; 8; 81; 91; 108; 27; 246; 242; 75; 72; 13; 189; 188; 222; 245; 76; 58; 8; 82];
      values [V_bytes [112; 114; 111; 112; 101; 114; 116; 121; 32; 49; 58; 112; 114; 111; 112; 101; 114; 116; 121; 32; 50]; V_bytes [49; 93; 172; 198; 24; 46; 76; 18; 191; 152; 119; 239; 169; 36; 203; 135]];
      V_num 0];
     d_bytes := [112; 115; 203; 244; 20; 68; 74; 65; 135; 179; 0; 134; 241; 67; 252; 96; 0; 0; 0; 0; 0; 0; 0; 6; 113; 117; 101; 117; 101; 65; 0; 0; 0; 0; 0; 0; 0; 42; 0; 0; 0; 0; 0; 0; 0; 16; 0; 0; 0; 0; 0; 0; 0; 16; 91; 108; 27; 246; 242; 75; 72; 13; 189; 188; 222; 245; 76; 58; 8; 81; 91; 108; 27; 246; 242; 75; 72; 13; 189; 188; 222; 245; 76; 58; 8; 82; 0; 0; 0; 0; 0; 0; 0; 21; 112; 114; 111; 112; 101; 114; 116; 121; 32; 49; 58; 112; 114; 111; 112; 101; 114; 116; 121; 32; 50; 49; 93; 172; 198; 24; 46; 76; 18; 191; 152; 119; 239; 169; 36; 203; 135; 0] |}.
(* ## queue_group_dequeue_reply *)
Definition doc_dequeue_reply : doc :=
  {| d_number := 6202; d_versions := [1003; 1004];
     d_rows := [("execution"%string, Fixed 16); ("has_value"%string, Number 1); ("message.id"%string, Fixed 16); ("message.attributes.properties.size"%string, Number 8); ("message.attributes.properties.data"%string, Dynamic); ("message.attributes.reply.size"%string, Number 8); ("message.attributes.reply.data"%string, Dynamic); ("message.attributes.available"%string, Number 8); ("message.payload.type.size"%string, Number 8); ("message.payload.type.data"%string, Dynamic); ("message.payload.data.size"%string, Number 8); ("message.payload.data.data"%string, Dynamic); ("message.redelivered"%string, Number 8); ("message.timestamp"%string, Number 8); ("code"%string, Number 4)];
     d_example := values [V_bytes [112; 115; 203; 244; 20; 68; 74; 65; 135; 179; 0; 134; 241; 67; 252; 96];
      V_some (values [V_bytes [83; 47; 139; 108; 21; 118; 77; 202; 159; 232; 42; 48; 2; 222; 87; 158]; values [V_bytes [112; 114; 111; 112; 101; 114; 116; 121; 32; 49; 58; 112; 114; 111; 112; 101; 114; 116; 121; 32; 50]; V_bytes [113; 117; 101; 117; 101; 66]; V_num 1559762216552100000]; values [V_bytes [46; 106; 115; 111; 110; 47]; V_bytes [123; 125]]; V_num 1; V_num 1559762216552100000]);
      V_num 20];
     d_bytes := [112; 115; 203; 244; 20; 68; 74; 65; 135; 179; 0; 134; 241; 67; 252; 96; 1; 83; 47; 139; 108; 21; 118; 77; 202; 159; 232; 42; 48; 2; 222; 87; 158; 0; 0; 0; 0; 0; 0; 0; 21; 112; 114; 111; 112; 101; 114; 116; 121; 32; 49; 58; 112; 114; 111; 112; 101; 114; 116; 121; 32; 50; 0; 0; 0; 0; 0; 0; 0; 6; 113; 117; 101; 117; 101; 66; 21; 165; 99; 120; 211; 169; 240; 160; 0; 0; 0; 0; 0; 0; 0; 6; 46; 106; 115; 111; 110; 47; 0; 0; 0; 0; 0; 0; 0; 2; 123; 125; 0; 0; 0; 0; 0; 0; 0; 1; 21; 165; 99; 120; 211; 169; 240; 160; 0; 0; 0; 20] |}.
(* ## queue_group_dequeue_reply_v1_2 *)
Definition doc_dequeue_reply_v1_2 : doc :=
  {| d_number := 6201; d_versions := [1000; 1001; 1002];
     d_rows := [("execution"%string, Fixed 16); ("message.size"%string, Number 8); ("message.element.id"%string, Fixed 16); ("message.element.attributes.properties.size"%string, Number 8); ("message.element.attributes.properties.data"%string, Dynamic); ("message.element.attributes.reply.size"%string, Number 8); ("message.element.attributes.reply.data"%string, Dynamic); ("message.element.attributes.available"%string, Number 8); ("message.element.payload.type.size"%string, Number 8); ("message.element.payload.type.data"%string, Dynamic); ("message.element.payload.data.size"%string, Number 8); ("message.element.payload.data.data"%string, Dynamic); ("message.element.redelivered"%string, Number 8); ("message.element.timestamp"%string, Number 8)];
     d_example := values [V_bytes [112; 115; 203; 244; 20; 68; 74; 65; 135; 179; 0; 134; 241; 67; 252; 96];
      V_list [values [V_bytes [83; 47; 139; 108; 21; 118; 77; 202; 159; 232; 42; 48; 2; 222; 87; 158]; values [V_bytes [112; 114; 111; 112; 101; 114; 116; 121; 32; 49; 58; 112; 114; 111; 112; 101; 114; 116; 121; 32; 50]; V_bytes [113; 117; 101; 117; 101; 66]; V_num 1559762216552100000]; values [V_bytes [46; 106; 115; 111; 110; 47]; V_bytes [123; 125]]; V_num 1; V_num 1559762216552100000]]];
     d_bytes := [112; 115; 203; 244; 20; 68; 74; 65; 135; 179; 0; 134; 241; 67; 252; 96; 0; 0; 0; 0; 0; 0; 0; 1; 83; 47; 139; 108; 21; 118; 77; 202; 159; 232; 42; 48; 2; 222; 87; 158; 0; 0; 0; 0; 0; 0; 0; 21; 112; 114; 111; 112; 101; 114; 116; 121; 32; 49; 58; 112; 114; 111; 112; 101; 114; 116; 121; 32; 50; 0; 0; 0; 0; 0; 0; 0; 6; 113; 117; 101; 117; 101; 66; 21; 165; 99; 120; 211; 169; 240; 160; 0; 0; 0; 0; 0; 0; 0; 6; 46; 106; 115; 111; 110; 47; 0; 0; 0; 0; 0; 0; 0; 2; 123; 125; 0; 0; 0; 0; 0; 0; 0; 1; 21; 165; 99; 120; 211; 169; 240; 160] |}.
(* ## conversation_connect_request *)
Definition doc_conv_request : doc :=
  {| d_number := 3220; d_versions := [1003; 1004];
     d_rows := [("execution"%string, Fixed 16); ("service.name.size"%string, Number 8); ("service.name.data"%string, Dynamic); ("has_value"%string, Number 1); ("deadline.remaining"%string, Number 8); ("parent.span"%string, Fixed 8); ("parent.service.size"%string, Number 8); ("parent.service.data"%string, Dynamic); ("xid.formatID"%string, Number 8); ("xid.gtrid_length"%string, Number 8); ("xid.bqual_length"%string, Number 8); ("xid.data"%string, Xid_data); ("duplex"%string, Number 2); ("buffer.type.size"%string, Number 8); ("buffer.type.data"%string, Dynamic); ("buffer.data.size"%string, Number 8); ("buffer.data.data"%string, Dynamic)];
     d_example := values [V_bytes [112; 115; 203; 244; 20; 68; 74; 65; 135; 179; 0; 134; 241; 67; 252; 96];
      V_bytes [115; 101; 114; 118; 105; 99; 101; 49];
      V_some (V_num 42000000000);
      values [V_bytes [128; 129; 130; 131; 132; 133; 134; 135]; V_bytes [112; 97; 114; 101; 110; 116; 45; 115; 101; 114; 118; 105; 99; 101]];
      V_xid 42 16 16 [91; 108; 27; 246; 242; 75; 72; 13; 189; 188; 222; 245; 76; 58; 8; 81; 91; 108; 27; 246; 242; 75; 72; 13; 189; 188; 222; 245; 76; 58; 8; 82];
      V_num 0;
      values [V_bytes [46; 98; 105; 110; 97; 114; 121; 47]; V_bytes [128; 129; 130; 131; 132; 133; 134; 135; 136; 137; 138; 139; 140; 141; 142; 143; 144; 145; 146; 147; 148; 149; 150; 151; 152; 153; 154; 155; 156; 157; 158; 159; 160; 161; 162; 163; 164; 165; 166; 167; 168; 169; 170; 171; 172; 173; 174; 175; 176; 177; 178; 179; 180; 181; 182; 183; 184; 185; 186; 187; 188; 189; 190; 191; 192; 193; 194; 195; 196; 197; 198; 199; 200; 201; 202; 203; 204; 205; 206; 207; 208; 209; 210; 211; 212; 213; 214; 215; 216; 217; 218; 219; 220; 221; 222; 223; 224; 225; 226; 227; 228; 229; 230; 231; 232; 233; 234; 235; 236; 237; 238; 239; 240; 241; 242; 243; 244; 245; 246; 247; 248; 249; 250; 251; 252; 253; 254; 255]]];
     d_bytes := [112; 115; 203; 244; 20; 68; 74; 65; 135; 179; 0; 134; 241; 67; 252; 96; 0; 0; 0; 0; 0; 0; 0; 8; 115; 101; 114; 118; 105; 99; 101; 49; 1; 0; 0; 0; 9; 199; 101; 36; 0; 128; 129; 130; 131; 132; 133; 134; 135; 0; 0; 0; 0; 0; 0; 0; 14; 112; 97; 114; 101; 110; 116; 45; 115; 101; 114; 118; 105; 99; 101; 0; 0; 0; 0; 0; 0; 0; 42; 0; 0; 0; 0; 0; 0; 0; 16; 0; 0; 0; 0; 0; 0; 0; 16; 91; 108; 27; 246; 242; 75; 72; 13; 189; 188; 222; 245; 76; 58; 8; 81; 91; 108; 27; 246; 242; 75; 72; 13; 189; 188; 222; 245; 76; 58; 8; 82; 0; 0; 0; 0; 0; 0; 0; 0; 0; 8; 46; 98; 105; 110; 97; 114; 121; 47; 0; 0; 0; 0; 0; 0; 0; 128; 128; 129; 130; 131; 132; 133; 134; 135; 136; 137; 138; 139; 140; 141; 142; 143; 144; 145; 146; 147; 148; 149; 150; 151; 152; 153; 154; 155; 156; 157; 158; 159; 160; 161; 162; 163; 164; 165; 166; 167; 168; 169; 170; 171; 172; 173; 174; 175; 176; 177; 178; 179; 180; 181; 182; 183; 184; 185; 186; 187; 188; 189; 190; 191; 192; 193; 194; 195; 196; 197; 198; 199; 200; 201; 202; 203; 204; 205; 206; 207; 208; 209; 210; 211; 212; 213; 214; 215; 216; 217; 218; 219; 220; 221; 222; 223; 224; 225; 226; 227; 228; 229; 230; 231; 232; 233; 234; 235; 236; 237; 238; 239; 240; 241; 242; 243; 244; 245; 246; 247; 248; 249; 250; 251; 252; 253; 254; 255] |}.
(* ## conversation_connect_request_v2 *)
Definition doc_conv_request_v2 : doc :=
  {| d_number := 3210; d_versions := [1000; 1001; 1002];
     d_rows := [("execution"%string, Fixed 16); ("service.name.size"%string, Number 8); ("service.name.data"%string, Dynamic); ("service.timeout.duration"%string, Number 8); ("parent.size"%string, Number 8); ("parent.data"%string, Dynamic); ("xid.formatID"%string, Number 8); ("xid.gtrid_length"%string, Number 8); ("xid.bqual_length"%string, Number 8); ("xid.data"%string, Xid_data); ("duplex"%string, Number 2); ("buffer.type.size"%string, Number 8); ("buffer.type.data"%string, Dynamic); ("buffer.data.size"%string, Number 8); ("buffer.data.data"%string, Dynamic)];
     d_example := values [V_bytes [112; 115; 203; 244; 20; 68; 74; 65; 135; 179; 0; 134; 241; 67; 252; 96];
      V_bytes [115; 101; 114; 118; 105; 99; 101; 49];
      V_num 42000000000;
      V_bytes [112; 97; 114; 101; 110; 116; 45; 115; 101; 114; 118; 105; 99; 101];
      V_xid 42 16 16 [91; 108; 27; 246; 242; 75; 72; 13; 189; 188; 222; 245; 76; 58; 8; 81; 91; 108; 27; 246; 242; 75; 72; 13; 189; 188; 222; 245; 76; 58; 8; 82];
      V_num 0;
      values [V_bytes [46; 98; 105; 110; 97; 114; 121; 47]; V_bytes [128; 129; 130; 131; 132; 133; 134; 135; 136; 137; 138; 139; 140; 141; 142; 143; 144; 145; 146; 147; 148; 149; 150; 151; 152; 153; 154; 155; 156; 157; 158; 159; 160; 161; 162; 163; 164; 165; 166; 167; 168; 169; 170; 171; 172; 173; 174; 175; 176; 177; 178; 179; 180; 181; 182; 183; 184; 185; 186; 187; 188; 189; 190; 191; 192; 193; 194; 195; 196; 197; 198; 199; 200; 201; 202; 203; 204; 205; 206; 207; 208; 209; 210; 211; 212; 213; 214; 215; 216; 217; 218; 219; 220; 221; 222; 223; 224; 225; 226; 227; 228; 229; 230; 231; 232; 233; 234; 235; 236; 237; 238; 239; 240; 241; 242; 243; 244; 245; 246; 247; 248; 249; 250; 251; 252; 253; 254; 255]]];
     d_bytes := [112; 115; 203; 244; 20; 68; 74; 65; 135; 179; 0; 134; 241; 67; 252; 96; 0; 0; 0; 0; 0; 0; 0; 8; 115; 101; 114; 118; 105; 99; 101; 49; 0; 0; 0; 9; 199; 101; 36; 0; 0; 0; 0; 0; 0; 0; 0; 14; 112; 97; 114; 101; 110; 116; 45; 115; 101; 114; 118; 105; 99; 101; 0; 0; 0; 0; 0; 0; 0; 42; 0; 0; 0; 0; 0; 0; 0; 16; 0; 0; 0; 0; 0; 0; 0; 16; 91; 108; 27; 246; 242; 75; 72; 13; 189; 188; 222; 245; 76; 58; 8; 81; 91; 108; 27; 246; 242; 75; 72; 13; 189; 188; 222; 245; 76; 58; 8; 82; 0; 0; 0; 0; 0; 0; 0; 0; 0; 8; 46; 98; 105; 110; 97; 114; 121; 47; 0; 0; 0; 0; 0; 0; 0; 128; 128; 129; 130; 131; 132; 133; 134; 135; 136; 137; 138; 139; 140; 141; 142; 143; 144; 145; 146; 147; 148; 149; 150; 151; 152; 153; 154; 155; 156; 157; 158; 159; 160; 161; 162; 163; 164; 165; 166; 167; 168; 169; 170; 171; 172; 173; 174; 175; 176; 177; 178; 179; 180; 181; 182; 183; 184; 185; 186; 187; 188; 189; 190; 191; 192; 193; 194; 195; 196; 197; 198; 199; 200; 201; 202; 203; 204; 205; 206; 207; 208; 209; 210; 211; 212; 213; 214; 215; 216; 217; 218; 219; 220; 221; 222; 223; 224; 225; 226; 227; 228; 229; 230; 231; 232; 233; 234; 235; 236; 237; 238; 239; 240; 241; 242; 243; 244; 245; 246; 247; 248; 249; 250; 251; 252; 253; 254; 255] |}.
(* ## conversation_connect_reply *)
Definition doc_conv_reply : doc :=
  {| d_number := 3211; d_versions := [1000; 1001; 1002; 1003; 1004];
     d_rows := [("execution"%string, Fixed 16); ("code.result"%string, Number 4)];
     d_example := values [V_bytes [112; 115; 203; 244; 20; 68; 74; 65; 135; 179; 0; 134; 241; 67; 252; 96];
      V_num (-1)];
     d_bytes := [112; 115; 203; 244; 20; 68; 74; 65; 135; 179; 0; 134; 241; 67; 252; 96; 255; 255; 255; 255] |}.
(* ## conversation_send *)
Definition doc_conv_send : doc :=
  {| d_number := 3212; d_versions := [1000; 1001; 1002; 1003; 1004];
     d_rows := [("execution"%string, Fixed 16); ("duplex"%string, Number 2); ("code.result"%string, Number 4); ("code.user"%string, Number 8); ("buffer.type.size"%string, Number 8); ("buffer.type.data"%string, Dynamic); ("buffer.data.size"%string, Number 8); ("buffer.data.data"%string, Dynamic)];
     d_example := values [V_bytes [112; 115; 203; 244; 20; 68; 74; 65; 135; 179; 0; 134; 241; 67; 252; 96];
      V_num 0;
      V_num 0;
      V_num 42;
      values [V_bytes [46; 98; 105; 110; 97; 114; 121; 47]; V_bytes [128; 129; 130; 131; 132; 133; 134; 135; 136; 137; 138; 139; 140; 141; 142; 143; 144; 145; 146; 147; 148; 149; 150; 151; 152; 153; 154; 155; 156; 157; 158; 159; 160; 161; 162; 163; 164; 165; 166; 167; 168; 169; 170; 171; 172; 173; 174; 175; 176; 177; 178; 179; 180; 181; 182; 183; 184; 185; 186; 187; 188; 189; 190; 191; 192; 193; 194; 195; 196; 197; 198; 199; 200; 201; 202; 203; 204; 205; 206; 207; 208; 209; 210; 211; 212; 213; 214; 215; 216; 217; 218; 219; 220; 221; 222; 223; 224; 225; 226; 227; 228; 229; 230; 231; 232; 233; 234; 235; 236; 237; 238; 239; 240; 241; 242; 243; 244; 245; 246; 247; 248; 249; 250; 251; 252; 253; 254; 255]]];
     d_bytes := [112; 115; 203; 244; 20; 68; 74; 65; 135; 179; 0; 134; 241; 67; 252; 96; 0; 0; 0; 0; 0; 0; 0; 0; 0; 0; 0; 0; 0; 42; 0; 0; 0; 0; 0; 0; 0; 8; 46; 98; 105; 110; 97; 114; 121; 47; 0; 0; 0; 0; 0; 0; 0; 128; 128; 129; 130; 131; 132; 133; 134; 135; 136; 137; 138; 139; 140; 141; 142; 143; 144; 145; 146; 147; 148; 149; 150; 151; 152; 153; 154; 155; 156; 157; 158; 159; 160; 161; 162; 163; 164; 165; 166; 167; 168; 169; 170; 171; 172; 173; 174; 175; 176; 177; 178; 179; 180; 181; 182; 183; 184; 185; 186; 187; 188; 189; 190; 191; 192; 193; 194; 195; 196; 197; 198; 199; 200; 201; 202; 203; 204; 205; 206; 207; 208; 209; 210; 211; 212; 213; 214; 215; 216; 217; 218; 219; 220; 221; 222; 223; 224; 225; 226; 227; 228; 229; 230; 231; 232; 233; 234; 235; 236; 237; 238; 239; 240; 241; 242; 243; 244; 245; 246; 247; 248; 249; 250; 251; 252; 253; 254; 255] |}.
(* ## conversation_disconnect *)
Definition doc_conv_disconnect : doc :=
  {| d_number := 3213; d_versions := [1000; 1001; 1002; 1003; 1004];
     d_rows := [("execution"%string, Fixed 16)];
     d_example := values [V_bytes [112; 115; 203; 244; 20; 68; 74; 65; 135; 179; 0; 134; 241; 67; 252; 96]];
     d_bytes := [112; 115; 203; 244; 20; 68; 74; 65; 135; 179; 0; 134; 241; 67; 252; 96] |}.
Definition documented (k : kind) : option doc :=
  match k with
  | K_connect_request => Some doc_connect_request
  | K_connect_reply => Some doc_connect_reply
  | K_disconnect_request => Some doc_disconnect_request
  | K_disconnect_reply => Some doc_disconnect_reply
  | K_discovery_request => Some doc_discovery_request
  | K_discovery_reply => Some doc_discovery_reply
  | K_implicit_update => Some doc_implicit_update
  | K_call => Some doc_call
  | K_call_v2 => Some doc_call_v2
  | K_reply => Some doc_reply
  | K_reply_v2 => Some doc_reply_v2
  | K_prepare_request => Some doc_prepare_request
  | K_prepare_reply => Some doc_prepare_reply
  | K_commit_request => Some doc_commit_request
  | K_commit_reply => Some doc_commit_reply
  | K_rollback_request => Some doc_rollback_request
  | K_rollback_reply => Some doc_rollback_reply
  | K_enqueue_request => Some doc_enqueue_request
  | K_enqueue_reply => Some doc_enqueue_reply
  | K_enqueue_reply_v1_2 => Some doc_enqueue_reply_v1_2
  | K_dequeue_request => Some doc_dequeue_request
  | K_dequeue_reply => Some doc_dequeue_reply
  | K_dequeue_reply_v1_2 => Some doc_dequeue_reply_v1_2
  | K_conv_request => Some doc_conv_request
  | K_conv_request_v2 => Some doc_conv_request_v2
  | K_conv_reply => Some doc_conv_reply
  | K_conv_send => Some doc_conv_send
  | K_conv_disconnect => Some doc_conv_disconnect
  | _ => None
  end.
