(** The grammar files of the repository, verbatim, directory by directory. *)
From Coq Require Import String List.
Import ListNotations.
Open Scope string_scope.

(** /repo/sf.grammar *)
Definition root_sf : string :=
"<flight> = <departure> <arrival> {nf.flight($1, $2)};
[flight] = <arrival> <departure> {nf.flight($2, $1)};

<departure> = <from> <city> {nf.I($2)};

<arrival> = <to> <city> {nf.I($2)};
[arrival] = <arrival> {nf.arrival($1)};

<from> = ""从"" ;

<to> = ""到"" | ""去"" | ""飞""; 

<city> = ""北京"" {nf.I(""BeiJing"")}
       | ""天津"" {nf.I(""TianJin"")}
       | ""上海"" {nf.I(""ShangHai"")}
       | `.(?:城|都)`
       ;

<city_ext> = <city>            {nf.I($1)}
           | (any{1,1}) <city> {nf.I($2)}
           ;

<cities> = ""直辖市："" (list<city_ext>) {fmr.entity(@)};//{nf.I($2)};
".

(** /repo *)
Definition dir_root : list (string * string) := [("sf.grammar", root_sf)].

(** /repo/examples/arithmetic/arithmetic.grammar *)
Definition arithmetic_arithmetic : string :=
"<number> = ""one""    {nf.I(1)}
         | ""two""    {nf.I(2)}
         | ""three""  {nf.I(3)}
         | ""four""   {nf.I(4)}
         | ""five""   {nf.I(5)}
         | ""six""    {nf.I(6)}
         | ""seven""  {nf.I(7)}
         | ""eight""  {nf.I(8)}
         | ""nine""   {nf.I(9)}
         | ""ten""    {nf.I(10)}
         | ""一""     {nf.I(1)}
         | ""二""     {nf.I(2)}
         | ""三""     {nf.I(3)}
         | ""四""     {nf.I(4)}
         | ""五""     {nf.I(5)}
         | ""六""     {nf.I(6)}
         | ""七""     {nf.I(7)}
         | ""八""     {nf.I(8)}
         | ""九""     {nf.I(9)}
         | ""十""     {nf.I(10)}
         | <number> ""minus"" <number>        {nf.math.sub($1, $3)}
         | <number> ""减"" <number>           {nf.math.sub($1, $3)}
         | <number> ""plus"" <number>         {nf.math.sum($1, $3)}
         | <number> ""add"" <number>          {nf.math.sum($1, $3)}
         | <number> ""加"" <number>           {nf.math.sum($1, $3)}
         | <number> ""times"" <number>        {nf.math.mul($1, $3)}
         | <number> ""multiply by"" <number>  {nf.math.mul($1, $3)}
         | <number> ""乘"" <number>           {nf.math.mul($1, $3)}
         | ""minus"" <number>                 {nf.math.neg($2)}
         | ""负"" <number>                    {nf.math.neg($2)};

".

(** /repo/examples/arithmetic *)
Definition dir_arithmetic : list (string * string) := [("arithmetic.grammar", arithmetic_arithmetic)].

(** /repo/examples/builtin/builtin.grammar *)
Definition builtin_builtin : string :=
"<cardinal_unit> = ""zero""  {nf.I(0)} | ""o"" {nf.I(0)}
                | ""one""   {nf.I(1)} | ""a"" {nf.I(1)} | ""an"" {nf.I(1)}
                | ""two""   {nf.I(2)}
                | ""three"" {nf.I(3)}
                | ""four""  {nf.I(4)}
                | ""five""  {nf.I(5)}
                | ""six""   {nf.I(6)}
                | ""seven"" {nf.I(7)}
                | ""eight"" {nf.I(8)}
                | ""nine""  {nf.I(9)}
                ;

<cardinal_ten> = ""ten""       {nf.I(10)}
               | ""eleven""    {nf.I(11)}
               | ""twelve""    {nf.I(12)}
               | ""thirteen""  {nf.I(13)}
               | ""fourteen""  {nf.I(14)}
               | ""fifteen""   {nf.I(15)}
               | ""sixteen""   {nf.I(16)}
               | ""seventeen"" {nf.I(17)}
               | ""eighteen""  {nf.I(18)}
               | ""nineteen""  {nf.I(19)}
               ;
        
<ordinal_unit> = ""first""   {nf.I(1)}
               | ""second""  {nf.I(2)}
               | ""third""   {nf.I(3)}
               | ""fourth""  {nf.I(4)}
               | ""fifth""   {nf.I(5)}
               | ""sixth""   {nf.I(6)}
               | ""seventh"" {nf.I(7)}
               | ""eighth""  {nf.I(8)}
               | ""ninth""   {nf.I(9)}
               ;

<ordinal_ten>  = ""tenth""       {nf.I(10)}
               | ""eleventh""    {nf.I(11)}
               | ""twelfth""     {nf.I(12)}
               | ""thirteenth""  {nf.I(13)}
               | ""fourteenth""  {nf.I(14)}
               | ""fifteenth""   {nf.I(15)}
               | ""sixteenth""   {nf.I(16)}
               | ""seventeenth"" {nf.I(17)}
               | ""eighteenth""  {nf.I(18)}
               | ""nineteenth""  {nf.I(19)}
               ;

<cardinal_tens> = ""twenty""  {nf.I(20)}
                | ""thirty""  {nf.I(30)}
                | ""forty""   {nf.I(40)}
                | ""fifty""   {nf.I(50)}
                | ""sixty""   {nf.I(60)}
                | ""seventy"" {nf.I(70)}
                | ""eighty""  {nf.I(80)}
                | ""ninety""  {nf.I(90)}
                ;
               
<ordinal_tens> = ""twentieth""  {nf.I(20)}
               | ""thirtieth""  {nf.I(30)}
               | ""fortieth""   {nf.I(40)}
               | ""fiftieth""   {nf.I(50)}
               | ""sixtieth""   {nf.I(60)}
               | ""seventieth"" {nf.I(70)}
               | ""eightieth""  {nf.I(80)}
               | ""ninetieth""  {nf.I(90)}
               ;

<magnitude> = ""hundred""     {nf.I(100)}
            | ""thousand""    {nf.I(1000)}
            | ""million""     {nf.I(1000000)}
            | ""billion""     {nf.I(1000000000)}
            | ""trillion""    {nf.I(1000000000000)}
            | ""quadrillion"" {nf.I(1000000000000000)}
            | ""quintillion"" {nf.I(1000000000000000000)}
            | ""sextillion""  {nf.I(1000000000000000000000)}
            | ""septillion""  {nf.I(1000000000000000000000000)}
            | ""octillion""   {nf.I(1000000000000000000000000000)}
            | ""nonillion""   {nf.I(1000000000000000000000000000000)}
            | ""decillion""   {nf.I(1000000000000000000000000000000000)}
            ;

<base_number> = <cardinal_unit>  {nf.I($1)}
              | <cardinal_ten>   {nf.I($1)}
              | <cardinal_tens>  {nf.I($1)}
              | <cardinal_tens> <cardinal_unit> {nf.math.sum($1, $2)}
              | <cardinal_tens> ""and"" <cardinal_unit> {nf.math.sum($1, $3)}
              | <cardinal_tens> ""-"" <cardinal_unit> {nf.math.sum($1, $3)}
              | <cardinal_tens> "","" <cardinal_unit> {nf.math.sum($1, $3)}
              ;

<magnitude_number> = <base_number> <magnitude>      {nf.math.mul($1, $2)}
                   | <base_number> ""-"" <magnitude>  {nf.math.mul($1, $3)}
                   | <magnitude_number> <magnitude> {nf.math.mul($1, $2)}
                   ;

<section> = <magnitude_number> {nf.I($1)}
          | <base_number> {nf.I($1)}
          ;

<number> = <section> {nf.I($1)}
         | <section> <number> {nf.math.sum($1, $2)}
         | <section> ""and"" <number> {nf.math.sum($1, $3)}
         ;
".

(** /repo/examples/builtin/cn_num.grammar *)
Definition builtin_cn_num : string :=
"<cn_num_unit> = ""一"" {nf.I(1)}
              | ""二"" {nf.I(2)}
              | ""三"" {nf.I(3)}
              | ""四"" {nf.I(4)}
              | ""五"" {nf.I(5)}
              | ""六"" {nf.I(6)}
              | ""七"" {nf.I(7)}
              | ""八"" {nf.I(8)}
              | ""九"" {nf.I(9)}
              ;

<cn_zero> = ""零"" {nf.I(0)}
          | ""〇"" {nf.I(0)}
          ;

<cn_num_10> = ""十""        {nf.I(10)};
<cn_num_100> = ""百""       {nf.I(100)};
<cn_num_1000> = ""千""      {nf.I(1000)};

<cn_num_10000> = ""万""     {nf.I(10000)};
<cn_num_100000000> = ""亿"" {nf.I(100000000)};

<cn_num_10s> = <cn_num_10>                             {nf.I($1)}
             | <cn_num_unit> <cn_num_10>               {nf.math.mul($1, $2)}
             | <cn_num_unit> <cn_num_10> <cn_num_unit> {nf.math.sum(nf.math.mul($1, $2), $3)}
             | <cn_num_unit>                           {nf.I($1)}
             ;

<cn_num_100s> = <cn_num_unit> <cn_num_100>                         {nf.math.mul($1, $2)}
              | <cn_num_unit> <cn_num_100> <cn_num_10s>            {nf.math.sum(nf.math.mul($1, $2), $3)}
              | <cn_num_unit> <cn_num_100> <cn_zero> <cn_num_unit> {nf.math.sum(nf.math.mul($1, $2), $4)}
              | <cn_num_10s>                                       {nf.I($1)}
              ;

<cn_num_1000s> = <cn_num_unit> <cn_num_1000>                         {nf.math.mul($1, $2)}
               | <cn_num_unit> <cn_num_1000> <cn_num_100s>           {nf.math.sum(nf.math.mul($1, $2), $3)}
               | <cn_num_unit> <cn_num_1000> <cn_zero> <cn_num_unit> {nf.math.sum(nf.math.mul($1, $2), $4)}
               | <cn_num_unit> <cn_num_1000> <cn_zero> <cn_num_10s>  {nf.math.sum(nf.math.mul($1, $2), $4)}
               | <cn_num_100s>                                       {nf.I($1)}
               ;

<cn_num_10000s> = <cn_num_1000s> <cn_num_10000>                {nf.math.mul($1, $2)}
                | <cn_num_1000s> <cn_num_10000> <cn_num_1000s> {nf.math.sum(nf.math.mul($1, $2), $3)}
                | <cn_num_1000s>                               {nf.I($1)}
                ;

<cn_num_yi> = <cn_num_10000s> <cn_num_100000000>                           {nf.math.mul($1, $2)}
            | <cn_num_10000s> <cn_num_100000000> <cn_num_10000s>           {nf.math.sum(nf.math.mul($1, $2), $3)}
            | <cn_num_10000s> <cn_num_100000000> <cn_zero> <cn_num_10000s> {nf.math.sum(nf.math.mul($1, $2), $4)}
            | <cn_num_10000s>                                              {nf.I($1)}
            ;

<number> = <cn_num_yi> {nf.I($1)};

".

(** /repo/examples/builtin/any.grammar *)
Definition builtin_any : string :=
"<company> = <location> (any) ""有限公司""                {nf.company($1,$2,$3)}
          | <location> (any) <area> ""有限公司""         {nf.company($1,$2,$4,$3)}
          | (any) ""("" <location> "")"" ""有限公司""        {nf.company($3,$1,$5)}
          | (any) <area> ""("" <location> "")"" ""有限公司"" {nf.company($4,$1,$6,$2)}
          ;
<location> = ""北京"" {nf.I(""beijing"")}
           | ""天津"" {nf.I(""tianjin"")}
           | ""上海"" {nf.I(""shanghai"")}
           ;

<area> = ""科技""
       | ""网络技术""
       | ""计算机技术""
       ;
".

(** /repo/examples/builtin *)
Definition dir_builtin : list (string * string) := [("builtin.grammar", builtin_builtin); ("cn_num.grammar", builtin_cn_num); ("any.grammar", builtin_any)].

(** /repo/grammars/limit.grammar *)
Definition grammars_limit : string :=
"/*
 * Author: liang@zliu.org
 */

#include ""math.zh.grammar""

<limit_prefix> = ""前"";
<limit_suffix> = ""个"";

<limit> = <limit_prefix> <number> {nf.sql.limit($2)}
        | <number> <limit_suffix> {nf.sql.limit($1)}
        ;
".

(** /repo/grammars/math.zh.grammar *)
Definition grammars_math_zh : string :=
"/*
 * Author: Zhanliang Liu
 */

#include ""number.zh.grammar""

// for local grammars that come from regex tagger
<number> = <numeric> {nf.math.to_number($1)};

<number> = <number> ""打"" {nf.math.mul($1, 12)};

<number> = <number> ""加"" <number>        {nf.math.sum($1,$3)}
         | <number> ""加上"" <number>      {nf.math.sum($1,$3)}
         | <number> ""与"" <number> ""的和"" {nf.math.sum($1,$3)}
         ;

<number> = <number> ""减"" <number>        {nf.math.sub($1,$3)}
         | <number> ""减去"" <number>      {nf.math.sub($1,$3)}
         | <number> ""与"" <number> ""的差"" {nf.math.sub($1,$3)}
         ;

<fraction> = <number> ""分之"" <number> {nf.math.div($3,$1)}
           | <numeric> ""%"" {nf.math.div($1, 100)}
           ;

<number> = <number> ""乘"" <number>        {nf.math.mul($1,$3)}
         | <number> ""乘以"" <number>      {nf.math.mul($1,$3)}
         | <number> ""与"" <number> ""的积"" {nf.math.mul($1,$3)}
         | <number> ""的"" <number> ""倍""   {nf.math.mul($1,$3)}
         | <number> ""的一半""             {nf.math.mul($1,0.5)}
         | <number> ""的"" <fraction>      {nf.math.mul($1,$3)}
         ;

<number> = <number> ""除"" <number>   {nf.math.div($3,$1)}
         | <number> ""除以"" <number> {nf.math.div($1,$3)}
         | <fraction>               {nf.I($1)}
         ;

<number> = <number> ""的"" <number> ""次方"" {nf.math.pow($1,$3)}
         | <number> ""的"" <number> ""次幂"" {nf.math.pow($1,$3)}
         | <number> ""的平方""   {nf.math.pow($1,2)}
         | <number> ""的立方""   {nf.math.pow($1,3)}
         | <number> ""的平方根"" {nf.math.pow($1,0.5)}
         | <number> ""的立方根"" {nf.math.pow($1,nf.math.div(1,3))}
         ;

".

(** /repo/grammars/number.zh.grammar *)
Definition grammars_number_zh : string :=
"<cn_unit> = ""一"" {nf.I(1)}
          | ""二"" {nf.I(2)}
          | ""三"" {nf.I(3)}
          | ""四"" {nf.I(4)}
          | ""五"" {nf.I(5)}
          | ""六"" {nf.I(6)}
          | ""七"" {nf.I(7)}
          | ""八"" {nf.I(8)}
          | ""九"" {nf.I(9)}
          | ""壹"" {nf.I(1)}
          | ""贰"" {nf.I(2)}
          | ""叁"" {nf.I(3)}
          | ""肆"" {nf.I(4)}
          | ""伍"" {nf.I(5)}
          | ""陆"" {nf.I(6)}
          | ""柒"" {nf.I(7)}
          | ""捌"" {nf.I(8)}
          | ""玖"" {nf.I(9)}
          | ""两"" {nf.I(2)}
          | ""俩"" {nf.I(2)}
          | ""仨"" {nf.I(3)}
          ;

<cn_zero> = ""零"" {nf.I(0)}
          | ""〇"" {nf.I(0)}
          ;


<cn_digit> = <cn_unit> {nf.I($1)} | <cn_zero> {nf.I($1)} | <digits> {nf.I($1)};

<numbers> = <cn_digit> {nf.I($1)}
          | <cn_digit> <numbers> {nf.util.concat($1, $2)}
          ;

<cn_e1> = ""十"" {nf.I(10)}
        | ""拾"" {nf.I(10)}
        ;

<cn_e2> = ""百"" {nf.I(100)}
        | ""佰"" {nf.I(100)}
        ;

<cn_e3> = ""千"" {nf.I(1000)}
        | ""仟"" {nf.I(1000)}
        ;

<cn_e4> = ""万"" {nf.I(10000)};

<cn_e8> = ""亿""   {nf.I(100000000)}
        | ""万万"" {nf.I(100000000)}
        ;

<cn_e1s> = <cn_e1>                     {nf.I($1)}
         | <cn_e1> <cn_unit>           {nf.math.sum($1,$2)}
         | <cn_unit> <cn_e1>           {nf.math.mul($1, $2)}
         | <cn_unit> <cn_e1> <cn_unit> {nf.math.sum(nf.math.mul($1, $2), $3)}
         | <cn_unit>                   {nf.I($1)}
         | <cn_zero>                   {nf.I($1)}
         ;

<cn_e2s> = <cn_unit> <cn_e2>                    {nf.math.mul($1, $2)}
         | <cn_unit> <cn_e2> <cn_unit>          {nf.math.sum(nf.math.mul($1, $2), nf.math.mul(10,$3))}
         | <cn_unit> <cn_e2> <cn_e1s>           {nf.math.sum(nf.math.mul($1, $2), $3)}
         | <cn_unit> <cn_e2> <cn_zero> <cn_e1s> {nf.math.sum(nf.math.mul($1, $2), $4)}
         | <cn_e1s>                             {nf.I($1)}
         ;

<cn_e3s> = <cn_unit> <cn_e3>                    {nf.math.mul($1, $2)}
         | <cn_unit> <cn_e3> <cn_unit>          {nf.math.sum(nf.math.mul($1, $2), nf.math.mul(100,$3))}
         | <cn_unit> <cn_e3> <cn_e2s>           {nf.math.sum(nf.math.mul($1, $2), $3)}
         | <cn_unit> <cn_e3> <cn_zero> <cn_e2s> {nf.math.sum(nf.math.mul($1, $2), $4)}
         | <cn_e2s>                             {nf.I($1)}
         ;

<cn_e4s> = <cn_e3s> <cn_e4>                    {nf.math.mul($1, $2)}
         | <cn_e3s> <cn_e4> <cn_unit>          {nf.math.sum(nf.math.mul($1, $2), nf.math.mul(1000,$3))}
         | <cn_e3s> <cn_e4> <cn_e3s>           {nf.math.sum(nf.math.mul($1, $2), $3)}
         | <cn_e3s> <cn_e4> <cn_zero> <cn_e3s> {nf.math.sum(nf.math.mul($1, $2), $4)}
         | <cn_e3s>                            {nf.I($1)}
         | <numeric> <cn_e4>                   {nf.math.mul($1, $2)}
         ;

<cn_e8s> = <cn_e4s> <cn_e8>                    {nf.math.mul($1, $2)}
         | <cn_e4s> <cn_e8> <cn_unit>          {nf.math.sum(nf.math.mul($1, $2), nf.math.mul(10000000,$3))}
         | <cn_e4s> <cn_e8> <cn_e4s>           {nf.math.sum(nf.math.mul($1, $2), $3)}
         | <cn_e4s> <cn_e8> <cn_zero> <cn_e4s> {nf.math.sum(nf.math.mul($1, $2), $4)}
         | <cn_e4s>                            {nf.I($1)}
         | <numeric> <cn_e8>                   {nf.math.mul($1, $2)}
         ;

<cn_decimal> = ""点"" <numbers> {nf.math.decimal($2)};

<number> = <cn_e8s>              {nf.I($1)}
         | <cn_decimal>          {nf.I($1)}
         | <cn_e8s> <cn_decimal> {nf.math.sum($1,$2)}
         ;

<number> = <cn_e2> {nf.I($1)}
         | <cn_e3> {nf.I($1)}
         | <cn_e4> {nf.I($1)}
         | <cn_e8> {nf.I($1)}
         ;
".

(** /repo/grammars/order.grammar *)
Definition grammars_order : string :=
"/*
 * Author: liang@zliu.org
 */

// order by clause

<asc> = ""从近到远"" | ""从少到多"" | ""从小到大"" | ""从慢到快"" | ""升序"" | ""排名最低""
      | ""最小"" | ""最少"" | ""最慢"";
<desc> = ""从远到近"" | ""从多到少"" | ""从大到小"" | ""从快到慢"" | ""降序"" | ""排名最高""
       | ""最大"" | ""最多"" | ""最快"";
<order_prefix> = ""按"" | ""获得"" | ""获得的"" | ""给出"" | ""根据"" | ""按照"" | ""依据"";

<iorder> = <order_prefix> (any) <asc> {nf.sql.order($2,""asc"")}
        | <order_prefix> (any) <desc> {nf.sql.order($2,""desc"")}
        ;
".

(** /repo/grammars/sql.grammar *)
Definition grammars_sql : string :=
"#include ""order.grammar""
#include ""limit.grammar""

<order> = <iorder> {nf.I($1)}
        | <iorder> <number> {nf.sql.mix(nf.I($1),nf.sql.limit($2))}
        | <iorder> (any) <number> {nf.sql.mix(nf.I($1),nf.sql.limit($3))}
        ;

[sql] = <order> <limit> {nf.sql.gen($1,$2)};
".

(** /repo/grammars/time.grammar *)
Definition grammars_time : string :=
"#include ""math.zh.grammar""

<year> = <number> ""年"" {nf.datetime.year($1)}
//       | <numbers> ""年"" {nf.datetime.year($1)}
       ;
<month> = <number> ""月"" {nf.datetime.month($1)};
<day> = <number> ""日"" {nf.datetime.month($1)}
      | <number> ""号"" {nf.datetime.month($1)};


<date> = <year> <month> <day>
       | <month> <day>
       | <year> <month>
       | <year> {nf.I($1)}
       | <month> {nf.I($1)}
       | <day> {nf.I($1)}
       ;

<time> = <date>; // tagger里面也会根据正则打标一些

<before> = <time> ""前""         {nf.sql.where(""<"", $1)}
         | <time> ""之前""       {nf.sql.where(""<"", $1)}
         | <number> ""前""       {nf.sql.where(""<"", $1)}
         | <number> ""之前""     {nf.sql.where(""<"", $1)}
         | <time> ""及之前""     {nf.sql.where(""<="", $1)}
         | <time> ""及其之前""   {nf.sql.where(""<="", $1)}
         | <number> ""及之前""   {nf.sql.where(""<="", $1)}
         | <number> ""及其之前"" {nf.sql.where(""<="", $1)}
         ;

<after> = <time> ""后""         {nf.sql.where("">"", $1)}
        | <time> ""之后""       {nf.sql.where("">"", $1)}
        | <number> ""后""       {nf.sql.where("">"", $1)}
        | <number> ""之后""     {nf.sql.where("">"", $1)}
        | <time> ""及之后""     {nf.sql.where("">="", $1)}
        | <time> ""及其之后""   {nf.sql.where("">="", $1)}
        | <number> ""及之后""   {nf.sql.where("">="", $1)}
        | <number> ""及其之后"" {nf.sql.where("">="", $1)}
        ;
".

(** /repo/grammars *)
Definition dir_grammars : list (string * string) := [("limit.grammar", grammars_limit); ("math.zh.grammar", grammars_math_zh); ("number.zh.grammar", grammars_number_zh); ("order.grammar", grammars_order); ("sql.grammar", grammars_sql); ("time.grammar", grammars_time)].

(** /repo/examples/math/grammars/latex.math.grammar *)
Definition math_latex_math : string :=
"<Exp> = <AddExp> {nf.I($1)};

<AddExp> = <AddExp> ""+"" <MulExp> {nf.math.sum($1,$3)}
         | <AddExp> ""-"" <MulExp> {nf.math.sub($1,$3)}
         | <MulExp> {nf.I($1)}
         ;

<MulExp> = <MulExp> ""*"" <ExpExp> {nf.math.mul($1,$3)}
         | <MulExp> ""×"" <ExpExp> {nf.math.mul($1,$3)}
         | <MulExp> ""\\times"" <ExpExp> {nf.math.mul($1,$3)}
         | <MulExp> <ExpExp>     {nf.math.mul($1,$2)}
         | <MulExp> ""/"" <ExpExp> {nf.math.div($1,$3)}
         | <MulExp> ""÷"" <ExpExp> {nf.math.div($1,$3)}
         | ""\\frac"" ""{"" <Exp> ""}"" ""{"" <Exp> ""}"" {nf.math.div($3,$6)}
         | <ExpExp> {nf.I($1)}
         ;

<ExpExp> = <PriExp> ""^"" <ExpExp>  {nf.math.pow($1,$3)}
         | <PriExp> ""**"" <ExpExp> {nf.math.pow($1,$3)}
         | ""\\sqrt"" ""{"" <Exp> ""}"" {nf.math.pow($3,0.5)}
         | <PriExp> {nf.I($1)}
         ;

<SignExp> = ""+"" <PriExp> {nf.I($2)}
          ;

<PriExp> = ""\("" <Exp> "")"" {nf.I($2)}
         | ""{"" <Exp> ""}"" {nf.I($2)}
         | ""|"" <Exp> ""|"" {nf.math.abs($2)}
         | <numeric> {nf.math.to_number($1)}
         | <letters> {nf.math.expression($1)}
         ;

<VerbExp> = <Exp> ""="" <Exp> {vf.be.eq($1,$3)}
          | <Exp> ""\\neq"" <Exp> {vf.be.neq($1,$3)}
          | <Exp> ""≠"" <Exp> {vf.be.neq($1,$3)}
          | <Exp> "">"" <Exp> {vf.be.gt($1,$3)}
          | <Exp> ""≥"" <Exp> {vf.be.geq($1,$3)}
          | <Exp> ""\\geq"" <Exp> {vf.be.geq($1,$3)}
          | <Exp> ""<"" <Exp> {vf.be.lt($1,$3)}
          | <Exp> ""≤"" <Exp> {vf.be.leq($1,$3)}
          | <Exp> ""\\leq"" <Exp> {vf.be.leq($1,$3)}
          | <Exp> ""\\ "" <letters> <Exp> {nf.math.op($3,$1,$4)}
          ;

<Func> = ""f""|""g"";

<Exp> = <Func> ""\("" <Exp> "")"" {nf.math.func($1,$3)};


<start> = <VerbExp> {nf.I($1)}
        | <Exp> {nf.I($1)}
        ;
".

(** /repo/examples/math/grammars/math.en.grammar *)
Definition math_math_en : string :=
"/*
 * Author: Zhanliang Liu
 */

#include ""number.en.grammar""

// for local grammars that come from regex tagger
<number> = <numeric> {nf.math.to_number($1)};

<special_number> = ""pair""    {nf.I(2)}
                 | ""couple""  {nf.I(2)}
                 | ""dozen""   {nf.I(12)}
                 | ""percent"" {nf.I(0.01)}
                 ;
<number> = <special_number>          {nf.I($1)}
         | <number> <special_number> {nf.math.mul($1,$2)}
         ;

<number> = <number> ""plus"" <number>         {nf.math.sum($1,$3)}
         | <number> ""added to"" <number>     {nf.math.sum($3, $1)}
         | ""sum of"" <number> ""and"" <number> {nf.math.sum($2,$4)}
         | ""the sum of"" <number> ""and"" <number> {nf.math.sum($2,$4)}
         ;

<number> = <number> ""minus"" <number>           {nf.math.sub($1,$3)}
         | ""subtract"" <number> ""from"" <number> {nf.math.sub($4,$2)}
         | ""deduct"" <number> ""from"" <number>   {nf.math.sub($4,$2)}
         | <number> ""subtracted from"" <number> {nf.math.sub($3,$1)}
         ;

<number> = <number> ""divides"" <number>    {nf.math.div($3,$1)}
         | <number> ""divided by"" <number> {nf.math.div($1,$3)}
         | <number> ""over"" <number>       {nf.math.div($1,$3)}
         ;

<number> = <number> ""times"" <number>            {nf.math.mul($1,$3)}
         | <number> ""multiply by"" <number>      {nf.math.mul($1,$3)}
         | ""multiply"" <number> ""by"" <number>    {nf.math.mul($2,$4)}
         | ""product of"" <number> ""and"" <number> {nf.math.mul($2,$4)}
         | ""half of"" <number>                   {nf.math.mul($2,0.5)}
         ;

<number> = <number> ""raised to the power of"" <number>    {nf.math.pow($1,$3)}
         | <number> ""raised to the exponent of"" <number> {nf.math.pow($1,$3)}
         | ""square of"" <number>      {nf.math.pow($2,2)}
         | ""cube of"" <number>        {nf.math.pow($2,3)}
         | ""square root of"" <number> {nf.math.pow($2,0.5)}
         | ""cubic root of"" <number>  {nf.math.pow($2,nf.math.div(1,3))}
         ;

<equ> = <number> ""be equal to"" <number> {vf.be.equ($1,$2)}
      | <number> ""equal"" <number>       {vf.be.equ($1,$2)}
      | <number> ""be"" <number>          {vf.be.equ($1,$2)}
      ;

".

(** /repo/examples/math/grammars/math.grammar *)
Definition math_math : string :=
"#include ""math.en.grammar""
#include ""math.zh.grammar""

<Exp> = <AddExp> {nf.I($1)};

<AddExp> = <AddExp> ""+"" <MulExp> {nf.math.sum($1,$3)}
         | <AddExp> ""-"" <MulExp> {nf.math.sub($1,$3)}
         | <MulExp> {nf.I($1)}
         ;

<MulExp> = <MulExp> ""*"" <ExpExp> {nf.math.mul($1,$3)}
         | <MulExp> ""×"" <ExpExp> {nf.math.mul($1,$3)}
         | <MulExp> ""/"" <ExpExp> {nf.math.div($1,$3)}
         | <MulExp> ""÷"" <ExpExp> {nf.math.div($1,$3)}
         | <ExpExp> {nf.I($1)}
         ;

<ExpExp> = <PriExp> ""^"" <ExpExp>  {nf.math.pow($1,$3)}
         | <PriExp> ""**"" <ExpExp> {nf.math.pow($1,$3)}
         | <PriExp> {nf.I($1)}
         ;

<PriExp> = ""\("" <Exp> "")"" {nf.I($2)}
         | ""+"" <PriExp> {nf.I($2)}
         | ""-"" <PriExp> {nf.math.neg($2)}
         | <number> {nf.I($1)}
         | <letters> {nf.math.expression($1)}
         ;

".

(** /repo/examples/math/grammars/math.zh.grammar *)
Definition math_math_zh : string :=
"/*
 * Author: Zhanliang Liu
 */

#include ""number.zh.grammar""

// for local grammars that come from regex tagger
<number> = <numeric> {nf.math.to_number($1)};

<number> = <number> ""打"" {nf.math.mul($1, 12)};

<number> = <number> ""加"" <number>        {nf.math.sum($1,$3)}
         | <number> ""加上"" <number>      {nf.math.sum($1,$3)}
         | <number> ""与"" <number> ""的和"" {nf.math.sum($1,$3)}
         ;

<number> = <number> ""减"" <number>        {nf.math.sub($1,$3)}
         | <number> ""减去"" <number>      {nf.math.sub($1,$3)}
         | <number> ""与"" <number> ""的差"" {nf.math.sub($1,$3)}
         ;

<fraction> = <number> ""分之"" <number> {nf.math.div($3,$1)}
           ;

<number> = <number> ""乘"" <number>        {nf.math.mul($1,$3)}
         | <number> ""乘以"" <number>      {nf.math.mul($1,$3)}
         | <number> ""与"" <number> ""的积"" {nf.math.mul($1,$3)}
         | <number> ""的"" <number> ""倍""   {nf.math.mul($1,$3)}
         | <number> ""的一半""             {nf.math.mul($1,0.5)}
         | <number> ""的"" <fraction>      {nf.math.mul($1,$3)}
         ;

<number> = <number> ""除"" <number>   {nf.math.div($3,$1)}
         | <number> ""除以"" <number> {nf.math.div($1,$3)}
         | <fraction>               {nf.I($1)}
         ;

<number> = <number> ""的"" <number> ""次方"" {nf.math.pow($1,$3)}
         | <number> ""的"" <number> ""次幂"" {nf.math.pow($1,$3)}
         | <number> ""的平方""   {nf.math.pow($1,2)}
         | <number> ""的立方""   {nf.math.pow($1,3)}
         | <number> ""的平方根"" {nf.math.pow($1,0.5)}
         | <number> ""的立方根"" {nf.math.pow($1,nf.math.div(1,3))}
         ;

".

(** /repo/examples/math/grammars/number.en.grammar *)
Definition math_number_en : string :=
"<unit> = ""zero""  {nf.I(0)}
       | ""one""   {nf.I(1)}
       | ""two""   {nf.I(2)}
       | ""three"" {nf.I(3)}
       | ""four""  {nf.I(4)}
       | ""five""  {nf.I(5)}
       | ""six""   {nf.I(6)}
       | ""seven"" {nf.I(7)}
       | ""eight"" {nf.I(8)}
       | ""nine""  {nf.I(9)}
       ;

<numbers> = <unit>           {nf.I($1)}
          | <unit> <numbers> {nf.util.concat($1,$2)}
          ;

<ten> = ""ten""       {nf.I(10)}
      | ""eleven""    {nf.I(11)}
      | ""twelve""    {nf.I(12)}
      | ""thirteen""  {nf.I(13)}
      | ""fourteen""  {nf.I(14)}
      | ""fifteen""   {nf.I(15)}
      | ""sixteen""   {nf.I(16)}
      | ""seventeen"" {nf.I(17)}
      | ""eighteen""  {nf.I(18)}
      | ""nineteen""  {nf.I(19)}
      ;

<tens> = ""twenty""  {nf.I(20)}
       | ""thirty""  {nf.I(30)}
       | ""forty""   {nf.I(40)}
       | ""fifty""   {nf.I(50)}
       | ""sixty""   {nf.I(60)}
       | ""seventy"" {nf.I(70)}
       | ""eighty""  {nf.I(80)}
       | ""ninety""  {nf.I(90)}
       ;

<e1> = <unit> {nf.I($1)}
     | <ten>  {nf.I($1)}
     | <tens> {nf.I($1)}
     | <tens> <unit>     {nf.math.sum($1,$2)}
     | <tens> ""-"" <unit> {nf.math.sum($1,$3)}
     ;

<e2>  = ""hundred""  {nf.I(100)};
<e3>  = ""thousand"" {nf.I(1000)};
<e6>  = ""million""  {nf.I(1000000)};
<e9>  = ""billion""  {nf.I(1000000000)};
<e12> = ""trillion"" {nf.I(1000000000000)};

<e2s> = <e1> {nf.I($1)}
      | <e2> {nf.I($1)}
      | <e1> <e2> {nf.math.mul($1,$2)}
      | <e1> <e2> <e1>       {nf.math.sum(nf.math.mul($1,$2),$3)}
      | <e1> <e2> ""and"" <e1> {nf.math.sum(nf.math.mul($1,$2),$4)}
      ;

<e3s> = <e2s> {nf.I($1)}
      | <e3>  {nf.I($1)}
      | <e2s> <e3> {nf.math.mul($1,$2)}
      | <e2s> <e3> <e2s> {nf.math.sum(nf.math.mul($1,$2),$3)}
      | <e2s> <e3> ""and"" <e2s> {nf.math.sum(nf.math.mul($1,$2),$4)}
      ;

<e6s> = <e3s> {nf.I($1)}
      | <e6>  {nf.I($1)}
      | <e3s> <e6> {nf.math.mul($1,$2)}
      | <e3s> <e6> <e3s> {nf.math.sum(nf.math.mul($1,$2),$3)}
      | <e3s> <e6> ""and"" <e3s> {nf.math.sum(nf.math.mul($1,$2),$4)}
      ;

<e9s> = <e6s> {nf.I($1)}
      | <e9>  {nf.I($1)}
      | <e6s> <e9> {nf.math.mul($1,$2)}
      | <e6s> <e9> <e6s> {nf.math.sum(nf.math.mul($1,$2),$3)}
      | <e6s> <e9> ""and"" <e6s> {nf.math.sum(nf.math.mul($1,$2),$4)}
      ;

<e12s> = <e9s>  {nf.I($1)}
       | <e12>  {nf.I($1)}
       | <e9s> <e12> {nf.math.mul($1,$2)}
       | <e9s> <e12> <e9s> {nf.math.sum(nf.math.mul($1,$2),$3)}
       | <e9s> <e12> ""and"" <e9s> {nf.math.sum(nf.math.mul($1,$2),$4)}
       ;

<en_decimal> = ""point"" <numbers> {nf.math.decimal($2)};

<en_number> = <e12s> {nf.I($1)};

<number> = <en_number> {nf.I($1)}
         | <en_decimal> {nf.I($1)}
         | <en_number> <en_decimal> {nf.math.sum($1,$2)}
         | <en_number> ""and"" <en_decimal> {nf.math.sum($1,$3)}
         ;

//<number> = <number> <e3> {nf.math.mul($1,$2)};
//<number> = <number> <e6> {nf.math.mul($1,$2)};
".

(** /repo/examples/math/grammars/number.zh.grammar *)
Definition math_number_zh : string :=
"<cn_unit> = ""一"" {nf.I(1)}
          | ""二"" {nf.I(2)}
          | ""三"" {nf.I(3)}
          | ""四"" {nf.I(4)}
          | ""五"" {nf.I(5)}
          | ""六"" {nf.I(6)}
          | ""七"" {nf.I(7)}
          | ""八"" {nf.I(8)}
          | ""九"" {nf.I(9)}
          | ""壹"" {nf.I(1)}
          | ""贰"" {nf.I(2)}
          | ""叁"" {nf.I(3)}
          | ""肆"" {nf.I(4)}
          | ""伍"" {nf.I(5)}
          | ""陆"" {nf.I(6)}
          | ""柒"" {nf.I(7)}
          | ""捌"" {nf.I(8)}
          | ""玖"" {nf.I(9)}
          | ""两"" {nf.I(2)}
          | ""俩"" {nf.I(2)}
          | ""仨"" {nf.I(3)}
          ;

<cn_zero> = ""零"" {nf.I(0)}
          | ""〇"" {nf.I(0)}
          ;

<cn_digit> = <cn_unit> {nf.I($1)} | <cn_zero> {nf.I($1)} | <digits> {nf.I($1)};

<numbers> = <cn_digit> {nf.I($1)}
          | <cn_digit> <numbers> {nf.util.concat($1, $2)}
          ;

<cn_e1> = ""十"" {nf.I(10)}
        | ""拾"" {nf.I(10)}
        ;

<cn_e2> = ""百"" {nf.I(100)}
        | ""佰"" {nf.I(100)}
        ;

<cn_e3> = ""千"" {nf.I(1000)}
        | ""仟"" {nf.I(1000)}
        ;

<cn_e4> = ""万"" {nf.I(10000)};

<cn_e8> = ""亿""   {nf.I(100000000)}
        | ""万万"" {nf.I(100000000)}
        ;

<cn_e1s> = <cn_e1>                     {nf.I($1)}
         | <cn_e1> <cn_unit>           {nf.math.sum($1,$2)}
         | <cn_unit> <cn_e1>           {nf.math.mul($1, $2)}
         | <cn_unit> <cn_e1> <cn_unit> {nf.math.sum(nf.math.mul($1, $2), $3)}
         | <cn_unit>                   {nf.I($1)}
         | <cn_zero>                   {nf.I($1)}
         ;

<cn_e2s> = <cn_unit> <cn_e2>                    {nf.math.mul($1, $2)}
         | <cn_unit> <cn_e2> <cn_unit>          {nf.math.sum(nf.math.mul($1, $2), nf.math.mul(10,$3))}
         | <cn_unit> <cn_e2> <cn_e1s>           {nf.math.sum(nf.math.mul($1, $2), $3)}
         | <cn_unit> <cn_e2> <cn_zero> <cn_e1s> {nf.math.sum(nf.math.mul($1, $2), $4)}
         | <cn_e1s>                             {nf.I($1)}
         ;

<cn_e3s> = <cn_unit> <cn_e3>                    {nf.math.mul($1, $2)}
         | <cn_unit> <cn_e3> <cn_unit>          {nf.math.sum(nf.math.mul($1, $2), nf.math.mul(100,$3))}
         | <cn_unit> <cn_e3> <cn_e2s>           {nf.math.sum(nf.math.mul($1, $2), $3)}
         | <cn_unit> <cn_e3> <cn_zero> <cn_e2s> {nf.math.sum(nf.math.mul($1, $2), $4)}
         | <cn_e2s>                             {nf.I($1)}
         ;

<cn_e4s> = <cn_e3s> <cn_e4>                    {nf.math.mul($1, $2)}
         | <cn_e3s> <cn_e4> <cn_unit>          {nf.math.sum(nf.math.mul($1, $2), nf.math.mul(1000,$3))}
         | <cn_e3s> <cn_e4> <cn_e3s>           {nf.math.sum(nf.math.mul($1, $2), $3)}
         | <cn_e3s> <cn_e4> <cn_zero> <cn_e3s> {nf.math.sum(nf.math.mul($1, $2), $4)}
         | <cn_e3s>                            {nf.I($1)}
         ;

<cn_e8s> = <cn_e4s> <cn_e8>                    {nf.math.mul($1, $2)}
         | <cn_e4s> <cn_e8> <cn_unit>          {nf.math.sum(nf.math.mul($1, $2), nf.math.mul(10000000,$3))}
         | <cn_e4s> <cn_e8> <cn_e4s>           {nf.math.sum(nf.math.mul($1, $2), $3)}
         | <cn_e4s> <cn_e8> <cn_zero> <cn_e4s> {nf.math.sum(nf.math.mul($1, $2), $4)}
         | <cn_e4s>                            {nf.I($1)}
         ;

<cn_decimal> = ""点"" <numbers> {nf.math.decimal($2)};

<number> = <cn_e8s>              {nf.I($1)}
         | <cn_decimal>          {nf.I($1)}
         | <cn_e8s> <cn_decimal> {nf.math.sum($1,$2)}
         ;

<number> = <cn_e2> {nf.I($1)}
         | <cn_e3> {nf.I($1)}
         | <cn_e4> {nf.I($1)}
         | <cn_e8> {nf.I($1)}
         ;
".

(** /repo/examples/math/grammars *)
Definition dir_math : list (string * string) := [("latex.math.grammar", math_latex_math); ("math.en.grammar", math_math_en); ("math.grammar", math_math); ("math.zh.grammar", math_math_zh); ("number.en.grammar", math_number_en); ("number.zh.grammar", math_number_zh)].

Definition shipped : list (list (string * string)) := [dir_root; dir_arithmetic; dir_builtin; dir_grammars; dir_math].
